(** Go's time.Date and the accessors of time.Time agree with the Gregorian calendar. *)
From Coq Require Import String List NArith ZArith Bool Lia.
From Verif Require Import Lexer Utf8 Strs GoTime DateSpec.
Import ListNotations.
Local Open Scope Z_scope.

(** [year_start] counts days: each year adds 365 or 366. *)
Lemma leap_spec y : leap y = true <-> (y mod 4 = 0 /\ (y mod 100 <> 0 \/ y mod 400 = 0)).
Proof.
  unfold leap. rewrite andb_true_iff, orb_true_iff, negb_true_iff, !Z.eqb_eq, Z.eqb_neq. tauto.
Qed.

Lemma year_start_step y : year_start (y + 1) = year_start y + if leap y then 366 else 365.
Proof.
  unfold year_start. pose proof (leap_spec y) as HL.
  destruct (leap y).
  - assert (H : y mod 4 = 0 /\ (y mod 100 <> 0 \/ y mod 400 = 0)) by now apply HL.
    clear HL. Z.to_euclidean_division_equations. lia.
  - assert (H : ~ (y mod 4 = 0 /\ (y mod 100 <> 0 \/ y mod 400 = 0))) by (rewrite <- HL; discriminate).
    clear HL. Z.to_euclidean_division_equations. lia.
Qed.

Lemma is_leap_leap y : 0 <= y -> is_leap y = leap y.
Proof.
  intros H. unfold is_leap, leap. rewrite !Z.rem_mod_nonneg by lia. reflexivity.
Qed.

(** ** 64-bit arithmetic *)

Lemma u64_eq x : exists k, u64 x = x + k * two64.
Proof.
  exists (- (x / two64)). unfold u64. pose proof (Z.div_mod x two64). unfold two64 in *. lia.
Qed.

Lemma u64_small x : 0 <= x < two64 -> u64 x = x.
Proof. intros H. unfold u64. now apply Z.mod_small. Qed.

Lemma i64_eq x : exists k, i64 x = x + k * two64.
Proof.
  exists (- ((x + two63) / two64)). unfold i64.
  pose proof (Z.div_mod (x + two63) two64). unfold two64, two63 in *. lia.
Qed.

Lemma i64_range x : - two63 <= i64 x < two63.
Proof.
  unfold i64. pose proof (Z.mod_pos_bound (x + two63) two64). unfold two64, two63 in *. lia.
Qed.

Lemma norm_nonneg hi lo base : 0 <= lo -> 0 < base -> norm hi lo base = (hi + lo / base, lo mod base).
Proof.
  intros H Hb. unfold norm. destruct (Z.ltb_spec lo 0); [lia|].
  rewrite Z.quot_div_nonneg by lia.
  destruct (Z.leb_spec base lo).
  - f_equal. pose proof (Z.div_mod lo base). lia.
  - rewrite Z.div_small, Z.mod_small by lia. f_equal. lia.
Qed.

(** ** daysSinceEpoch *)

Definition cycles : Z := 730692556.

Lemma days_since_epoch_spec y : 0 <= y <= 1000000 ->
  days_since_epoch y = 146097 * cycles + year_start y.
Proof.
  intros H. unfold days_since_epoch, absolute_zero_year.
  rewrite (u64_small (y - -292277022399)) by (unfold two64; lia).
  cbv zeta. unfold days_per_400_years, days_per_100_years, days_per_4_years, cycles, year_start.
  replace (y - -292277022399) with ((y - 1) + 730692556 * 400) by lia.
  rewrite Z.div_add by lia. set (z := y - 1). assert (Hz : -1 <= z <= 1000000) by lia. clearbody z.
  replace (z + 730692556 * 400 - 400 * (z / 400 + 730692556)) with (z - 400 * (z / 400)) by lia.
  assert (E : 36524 * ((z - 400 * (z / 400)) / 100) +
     1461 * ((z - 400 * (z / 400) - 100 * ((z - 400 * (z / 400)) / 100)) / 4) +
     365 * (z - 400 * (z / 400) - 100 * ((z - 400 * (z / 400)) / 100) -
            4 * ((z - 400 * (z / 400) - 100 * ((z - 400 * (z / 400)) / 100)) / 4)) +
     146097 * (z / 400) = 365 * z + z / 4 - z / 100 + z / 400).
  { clear. Z.to_euclidean_division_equations. lia. }
  assert (R : -400 <= 365 * z + z / 4 - z / 100 + z / 400 <= 400000000).
  { clear E. Z.to_euclidean_division_equations. lia. }
  rewrite u64_small; [lia | unfold two64; lia].
Qed.

Lemma month_start_spec y m : 1 <= m <= 12 ->
  month_start y m = days_before (m - 1) + (if leap y && (3 <=? m) then 1 else 0).
Proof.
  intros H.
  assert (E : m = 1 \/ m = 2 \/ m = 3 \/ m = 4 \/ m = 5 \/ m = 6 \/ m = 7 \/ m = 8 \/ m = 9 \/
              m = 10 \/ m = 11 \/ m = 12) by lia.
  unfold month_start, month_length.
  repeat (destruct E as [-> | E]); [..|subst m]; cbn; destruct (leap y); reflexivity.
Qed.

(** The instant time.Date returns, for all the field values a date-time text can have. *)
Theorem go_date_unix y m d h mi s l :
  0 <= y <= 9999 -> 1 <= m <= 12 -> 0 <= d <= 99 -> 0 <= h <= 99 -> 0 <= mi <= 99 -> 0 <= s <= 99 ->
  Z.abs (loc_offset l) <= 1000000 ->
  go_date y m d h mi s l =
  mkTime (86400 * day_number y m d + 3600 * h + 60 * mi + s - loc_offset l) l.
Proof.
  intros Hy Hm Hd Hh Hmi Hs Hl. unfold go_date.
  rewrite (norm_nonneg y (m - 1) 12) by lia.
  rewrite (Z.div_small (m - 1) 12), (Z.mod_small (m - 1) 12) by lia.
  rewrite (norm_nonneg mi s 60) by lia. rewrite (norm_nonneg h (mi + s / 60) 60);
    [|Z.to_euclidean_division_equations; lia | lia].
  rewrite (norm_nonneg d (h + (mi + s / 60) / 60) 24); [|Z.to_euclidean_division_equations; lia | lia].
  f_equal. rewrite Z.add_0_r.
  replace (m - 1 + 1 - 1) with (m - 1) by lia. replace (m - 1 + 1) with m by lia.
  rewrite days_since_epoch_spec by lia. rewrite is_leap_leap by lia.
  set (dd := d + (h + (mi + s / 60) / 60) / 24).
  set (hh := (h + (mi + s / 60) / 60) mod 24).
  set (mm := (mi + s / 60) mod 60). set (ss := s mod 60).
  assert (HT : 86400 * (dd - 1) + hh * 3600 + mm * 60 + ss = 86400 * (d - 1) + h * 3600 + mi * 60 + s).
  { subst dd hh mm ss. clear. Z.to_euclidean_division_equations. lia. }
  assert (HY : year_start 1 <= year_start y + 400 <= 4000000).
  { unfold year_start. clear - Hy. Z.to_euclidean_division_equations. lia. }
  change (year_start 1) with 0 in HY.
  pose proof (month_start_spec y m Hm) as HM.
  unfold day_number. change (year_start 1970) with 719162.
  set (D0 := 146097 * cycles + year_start y).
  (* name every wrapped value *)
  destruct (u64_eq (D0 + days_before (m - 1))) as [k1 E1]. rewrite E1. clear E1.
  set (D1 := D0 + days_before (m - 1) + k1 * two64).
  assert (HD2 : exists k2, (if leap y && (3 <=? m) then u64 (D1 + 1) else D1) =
                           D0 + month_start y m + k2 * two64).
  { rewrite HM. destruct (leap y && (3 <=? m)).
    - destruct (u64_eq (D1 + 1)) as [k2 ->]. exists (k1 + k2). subst D1. ring.
    - exists k1. subst D1. ring. }
  destruct HD2 as [k2 ->].
  destruct (u64_eq (dd - 1)) as [k3 ->].
  match goal with |- context [u64 (?a + (dd - 1 + k3 * two64))] =>
    destruct (u64_eq (a + (dd - 1 + k3 * two64))) as [k4 ->] end.
  match goal with |- context [u64 (?a * seconds_per_day)] =>
    destruct (u64_eq (a * seconds_per_day)) as [k5 ->] end.
  destruct (u64_eq (hh * 3600 + mm * 60 + ss)) as [k6 ->].
  match goal with |- context [i64 (u64 ?a)] => destruct (u64_eq a) as [k7 ->] end.
  match goal with |- context [i64 (i64 (i64 ?a + ?b) - ?c)] =>
    destruct (i64_eq a) as [k8 ->]; destruct (i64_eq (a + k8 * two64 + b)) as [k9 ->];
    pose proof (i64_range (a + k8 * two64 + b + k9 * two64 - c)) as HR;
    destruct (i64_eq (a + k8 * two64 + b + k9 * two64 - c)) as [k10 E10]; rewrite E10 in * end.
  assert (HMS : 0 <= month_start y m <= 400).
  { rewrite HM. clear - Hm.
    assert (E : m = 1 \/ m = 2 \/ m = 3 \/ m = 4 \/ m = 5 \/ m = 6 \/ m = 7 \/ m = 8 \/ m = 9 \/
              m = 10 \/ m = 11 \/ m = 12) by lia.
    repeat (destruct E as [-> | E]); [..|subst m]; destruct (leap y); vm_compute; split; discriminate. }
  subst D0. unfold absolute_to_internal, internal_to_unix, seconds_per_day, two64, two63, cycles in *.
  change (1969 / 4) with 492 in *. change (1969 / 100) with 19 in *. change (1969 / 400) with 4 in *.
  clearbody dd hh mm ss D1. clear HM E10. lia.
Qed.

(** ** Reading the fields back *)

Lemma month_length_bounds y m : 1 <= m <= 12 -> 28 <= month_length y m <= 31.
Proof.
  intros H.
  assert (E : m = 1 \/ m = 2 \/ m = 3 \/ m = 4 \/ m = 5 \/ m = 6 \/ m = 7 \/ m = 8 \/ m = 9 \/
              m = 10 \/ m = 11 \/ m = 12) by lia.
  repeat (destruct E as [-> | E]); [..|subst m]; unfold month_length; destruct (leap y); lia.
Qed.

Lemma yday_bound y m d : valid_date y m d ->
  0 <= month_start y m + (d - 1) < if leap y then 366 else 365.
Proof.
  intros [Hm Hd]. rewrite month_start_spec by exact Hm. revert Hd. unfold month_length.
  assert (E : m = 1 \/ m = 2 \/ m = 3 \/ m = 4 \/ m = 5 \/ m = 6 \/ m = 7 \/ m = 8 \/ m = 9 \/
              m = 10 \/ m = 11 \/ m = 12) by lia.
  repeat (destruct E as [-> | E]); [..|subst m]; destruct (leap y); cbn [andb Z.leb Z.compare Pos.compare Pos.compare_cont];
    match goal with |- context [days_before ?k] =>
      let v := eval vm_compute in (days_before k) in change (days_before k) with v end; lia.
Qed.

Lemma year_from_days y yd : 0 <= y <= 100000 -> 0 <= yd < (if leap y then 366 else 365) ->
  let d := 146097 * cycles + year_start y + yd in
  let n := d / 146097 in
  let y1 := 400 * n in
  let d := d - 146097 * n in
  let n := d / 36524 in
  let n := n - n / 4 in
  let y2 := y1 + 100 * n in
  let d := d - 36524 * n in
  let n := d / 1461 in
  let y3 := y2 + 4 * n in
  let d := d - 1461 * n in
  let n := d / 365 in
  let n := n - n / 4 in
  y3 + n = y - 1 + 400 * cycles /\ d - 365 * n = yd.
Proof.
  intros Hy Hyd.
  (* decompose the year *)
  set (z := y - 1). set (a := z / 400). set (r := z mod 400).
  set (b := r / 100). set (r2 := r mod 100). set (c := r2 / 4). set (q := r2 mod 4).
  assert (Hz : z = 400 * a + 100 * b + 4 * c + q).
  { subst a b c q r r2. clear. Z.to_euclidean_division_equations. lia. }
  assert (Hb : 0 <= b <= 3 /\ 0 <= c <= 24 /\ 0 <= q <= 3).
  { subst a b c q r r2. clear. Z.to_euclidean_division_equations. lia. }
  assert (HL : leap y = true -> q = 3 /\ (c <> 24 \/ b = 3)).
  { intros L. apply leap_spec in L. subst z. clear - L Hz Hb. clearbody a b c q.
    assert (Ey : y = 400 * a + 100 * b + 4 * c + q + 1) by lia. clear Hz. subst y.
    destruct L as [L1 L2].
    assert (q = 3) by (Z.to_euclidean_division_equations; lia). subst q.
    split; [reflexivity|]. destruct (Z.eq_dec c 24); [|now left]. right. subst c.
    destruct L2 as [L2|L2].
    - exfalso. apply L2. replace (400 * a + 100 * b + 4 * 24 + 3 + 1) with ((4 * a + b + 1) * 100) by ring.
      apply Z.mod_mul. lia.
    - Z.to_euclidean_division_equations. lia. }
  assert (HS : year_start y = 146097 * a + 36524 * b + 1461 * c + 365 * q).
  { unfold year_start. fold z. subst a b c q r r2. clear. Z.to_euclidean_division_equations. lia. }
  assert (Hyd2 : 0 <= yd <= 365 /\ (yd = 365 -> q = 3 /\ (c <> 24 \/ b = 3))).
  { destruct (leap y); [split; [lia|]; intros; now apply HL | lia]. }
  clear HL Hyd. rewrite HS. clear HS. clearbody a b c q. unfold cycles.
  clear r r2. clearbody z. cbv zeta.
  assert (N1 : (146097 * 730692556 + (146097 * a + 36524 * b + 1461 * c + 365 * q) + yd) / 146097
             = 730692556 + a).
  { symmetry. apply Z.div_unique with (r := 36524 * b + 1461 * c + 365 * q + yd); lia. }
  rewrite N1.
  replace (146097 * 730692556 + (146097 * a + 36524 * b + 1461 * c + 365 * q) + yd -
      146097 * (730692556 + a)) with (36524 * b + 1461 * c + 365 * q + yd) by lia.
  remember (36524 * b + 1461 * c + 365 * q + yd) as d1 eqn:Hd1.
  assert (N2 : d1 / 36524 - d1 / 36524 / 4 = b).
  { destruct (Z.eq_dec d1 146096) as [E|E].
    - rewrite E. change (146096 / 36524 - 146096 / 36524 / 4) with 3. lia.
    - assert (Hq : d1 / 36524 = b).
      { symmetry. apply Z.div_unique with (r := 1461 * c + 365 * q + yd); lia. }
      rewrite Hq, Z.div_small; lia. }
  rewrite N2. replace (d1 - 36524 * b) with (1461 * c + 365 * q + yd) by lia.
  assert (N3 : (1461 * c + 365 * q + yd) / 1461 = c).
  { symmetry. apply Z.div_unique with (r := 365 * q + yd); lia. }
  rewrite N3. replace (1461 * c + 365 * q + yd - 1461 * c) with (365 * q + yd) by lia.
  assert (N4 : (365 * q + yd) / 365 - (365 * q + yd) / 365 / 4 = q).
  { destruct (Z.eq_dec yd 365) as [E|E].
    - assert (q = 3) by tauto. subst. reflexivity.
    - assert (Hq : (365 * q + yd) / 365 = q).
      { symmetry. apply Z.div_unique with (r := yd); lia. }
      rewrite Hq, Z.div_small; lia. }
  rewrite N4. lia.
Qed.

Definition fin (day : Z) : Z * Z :=
  let month := day / 31 in
  let end_ := days_before (month + 1) in
  if end_ <=? day then (month + 1 + 1, day - end_ + 1)
  else (month + 1, day - days_before month + 1).

Ltac compute_db :=
  repeat match goal with
         | |- context [days_before ?k] =>
             let v := eval vm_compute in (days_before k) in change (days_before k) with v
         | H : context [days_before ?k] |- _ =>
             let v := eval vm_compute in (days_before k) in change (days_before k) with v in H
         end.

Lemma fin_spec m day : 1 <= m <= 12 -> days_before (m - 1) <= day < days_before m ->
  fin day = (m, day - days_before (m - 1) + 1).
Proof.
  intros Hm Hd. unfold fin. cbv zeta.
  assert (E : m = 1 \/ m = 2 \/ m = 3 \/ m = 4 \/ m = 5 \/ m = 6 \/ m = 7 \/ m = 8 \/ m = 9 \/
              m = 10 \/ m = 11 \/ m = 12) by lia.
  assert (K : day / 31 = m - 1 \/ day / 31 = m - 2).
  { repeat (destruct E as [-> | E]); [..|subst m]; compute_db; Z.to_euclidean_division_equations; lia. }
  destruct K as [K|K]; rewrite K; clear K;
    (repeat (destruct E as [-> | E]); [..|subst m]; compute_db;
     match goal with |- context [?a <=? ?b] => destruct (Z.leb_spec a b) end; try lia; f_equal; lia).
Qed.

Lemma month_day_spec y m d : 0 <= y -> valid_date y m d ->
  month_day y (month_start y m + (d - 1)) = (m, d).
Proof.
  intros Hy [Hm Hd]. rewrite month_start_spec by exact Hm.
  assert (HF : forall day, month_day y day =
    if leap y then if 59 <? day then fin (day - 1) else if day =? 59 then (2, 29) else fin day
    else fin day).
  { intros day. unfold month_day. rewrite is_leap_leap by exact Hy. reflexivity. }
  rewrite HF. clear HF.
  assert (HB : forall day, days_before (m - 1) <= day < days_before m -> fin day = (m, day - days_before (m - 1) + 1))
    by (intros day; now apply fin_spec).
  revert Hd. unfold month_length.
  assert (E : m = 1 \/ m = 2 \/ m = 3 \/ m = 4 \/ m = 5 \/ m = 6 \/ m = 7 \/ m = 8 \/ m = 9 \/
              m = 10 \/ m = 11 \/ m = 12) by lia.
  repeat (destruct E as [-> | E]); [..|subst m]; compute_db; destruct (leap y);
    cbn [andb Z.leb Z.compare Pos.compare Pos.compare_cont]; intros Hd;
    repeat match goal with
           | |- context [Z.ltb 59 ?x] => destruct (Z.ltb_spec 59 x); try lia
           | |- context [Z.eqb ?x 59] => destruct (Z.eqb_spec x 59); try lia
           end; try (f_equal; lia); rewrite HB by lia; f_equal; lia.
Qed.

Theorem go_date_fields y m d h mi s l :
  0 <= y <= 9999 -> valid_date y m d -> 0 <= h < 24 -> 0 <= mi < 60 -> 0 <= s < 60 ->
  Z.abs (loc_offset l) <= 1000000 ->
  t_date (go_date y m d h mi s l) = (y, m, d) /\
  t_clock (go_date y m d h mi s l) = (h, mi, s) /\
  t_zone_offset (go_date y m d h mi s l) = loc_offset l.
Proof.
  intros Hy Hd Hh Hmi Hs Hl. pose proof Hd as [Hm Hdd].
  pose proof (month_length_bounds y m Hm) as HML.
  rewrite go_date_unix by lia.
  assert (HA : t_abs (mkTime (86400 * day_number y m d + 3600 * h + 60 * mi + s - loc_offset l) l) =
     86400 * (146097 * cycles + year_start y + (month_start y m + (d - 1))) + (3600 * h + 60 * mi + s)).
  { unfold t_abs. cbn [t_unix t_loc]. unfold day_number. change (year_start 1970) with 719162.
    unfold unix_to_internal, internal_to_absolute, absolute_to_internal, internal_to_unix, cycles.
    pose proof (yday_bound y m d Hd) as HB.
    assert (HY : -400 <= year_start y <= 4000000).
    { unfold year_start. clear - Hy. Z.to_euclidean_division_equations. lia. }
    change (1969 / 4) with 492. change (1969 / 100) with 19. change (1969 / 400) with 4.
    rewrite u64_small; [|unfold two64; destruct (leap y)]; lia. }
  assert (HSd : 0 <= 3600 * h + 60 * mi + s < 86400) by lia.
  split; [|split; [|reflexivity]].
  - unfold t_date. rewrite HA. unfold abs_year_yday, seconds_per_day.
    set (DD := 146097 * cycles + year_start y + (month_start y m + (d - 1))).
    replace ((86400 * DD + (3600 * h + 60 * mi + s)) / 86400) with DD
      by (apply Z.div_unique with (r := 3600 * h + 60 * mi + s); lia).
    pose proof (year_from_days y (month_start y m + (d - 1)) ltac:(lia) (yday_bound y m d Hd)) as HY.
    cbv zeta in HY |- *. fold DD in HY. clearbody DD.
    unfold days_per_400_years, days_per_100_years, days_per_4_years.
    destruct HY as [HY1 HY2]. rewrite HY1, HY2.
    replace (i64 (i64 (y - 1 + 400 * cycles) + absolute_zero_year)) with y.
    + rewrite month_day_spec by (auto; lia). reflexivity.
    + unfold i64, absolute_zero_year, cycles, two63, two64.
      rewrite (Z.mod_small (y - 1 + 400 * 730692556 + _)) by lia. rewrite Z.mod_small; lia.
  - unfold t_clock. rewrite HA. unfold seconds_per_day.
    replace ((86400 * (146097 * cycles + year_start y + (month_start y m + (d - 1))) +
      (3600 * h + 60 * mi + s)) mod 86400) with (3600 * h + 60 * mi + s).
    + f_equal; [f_equal|]; Z.to_euclidean_division_equations; lia.
    + symmetry. rewrite Z.mul_comm, Z.add_comm, Z.mod_add by lia. apply Z.mod_small; lia.
Qed.
