(** C55: a time that ParseDateTime returned can be formatted with Time.Format and parsed again. *)
From Coq Require Import String List NArith ZArith Bool Arith Lia.
From Verif Require Import Lexer Grammar Utf8 Utf8Facts Strs Mime GoTime Parser Walker Api Spec DateSpec LexFacts LangFacts Dates
  Calendar DateText DateAccept PropDate GoFormat.
Import ListNotations.
Local Open Scope Z_scope.

(** * Every day has a date *)

Ltac months m H := let E := fresh in
  assert (E : m = 1 \/ m = 2 \/ m = 3 \/ m = 4 \/ m = 5 \/ m = 6 \/ m = 7 \/ m = 8 \/ m = 9 \/ m = 10 \/ m = 11 \/ m = 12) by lia;
  repeat (destruct E as [-> | E]); [..|subst m].

Lemma month_start_next y m : 1 <= m <= 11 -> month_start y (m + 1) = month_start y m + month_length y m.
Proof.
  intros H. rewrite !month_start_spec by lia. unfold month_length.
  assert (E : m = 1 \/ m = 2 \/ m = 3 \/ m = 4 \/ m = 5 \/ m = 6 \/ m = 7 \/ m = 8 \/ m = 9 \/ m = 10 \/ m = 11) by lia.
  repeat (destruct E as [-> | E]); [..|subst m]; destruct (leap y); reflexivity.
Qed.

Lemma year_end y : month_start y 12 + 31 = if leap y then 366 else 365.
Proof. rewrite month_start_spec by lia. destruct (leap y); reflexivity. Qed.

Lemma some_date n : exists y m d, 0 <= y /\ valid_date y m d /\ day_number y m d = day_number 0 1 1 + Z.of_nat n.
Proof.
  induction n as [|n (y & m & d & Hy & [Hm Hd] & E)].
  - exists 0, 1, 1. split; [lia|]. split; [split; [lia | cbn; lia] | lia].
  - rewrite Nat2Z.inj_succ. destruct (Z.ltb_spec d (month_length y m)).
    + exists y, m, (d + 1). split; [exact Hy|]. split; [split; lia|]. unfold day_number in *. lia.
    + destruct (Z.ltb_spec m 12).
      * exists y, (m + 1), 1. split; [exact Hy|]. pose proof (month_length_bounds y (m + 1) ltac:(lia)). split; [split; lia|].
        unfold day_number in *. rewrite month_start_next by lia. lia.
      * assert (m = 12) by lia. subst m. exists (y + 1), 1, 1. split; [lia|]. split; [split; [lia | cbn; lia]|].
        pose proof (year_end y) as L. cbn [month_length] in *. change (month_start (y + 1) 1) with 0 in *. unfold day_number in *.
        change (month_start (y + 1) 1) with 0. rewrite year_start_step. destruct (leap y); lia.
Qed.

Lemma year_start_mono y y' : 0 <= y -> y <= y' -> year_start y <= year_start y'.
Proof. intros H L. unfold year_start. Z.to_euclidean_division_equations. lia. Qed.

Lemma date_bounds y m d : valid_date y m d -> year_start y - year_start 1970 <= day_number y m d < year_start (y + 1) - year_start 1970.
Proof. intros H. pose proof (yday_bound y m d H). unfold day_number. rewrite year_start_step. destruct (leap y); lia. Qed.

(** * Reading the fields of any time *)

Lemma time_abs y m d x t : 0 <= y <= 90000 -> valid_date y m d -> 0 <= x < 86400 ->
  t_unix t + loc_offset (t_loc t) = 86400 * day_number y m d + x ->
  t_abs t = 86400 * (146097 * cycles + year_start y + (month_start y m + (d - 1))) + x.
Proof.
  intros Hy Hd Hx E. unfold t_abs. rewrite E. unfold day_number. change (year_start 1970) with 719162.
  unfold unix_to_internal, internal_to_absolute, absolute_to_internal, internal_to_unix, cycles.
  pose proof (yday_bound y m d Hd) as HB.
  assert (HY : -400 <= year_start y <= 40000000) by (unfold year_start; clear - Hy; Z.to_euclidean_division_equations; lia).
  change (1969 / 4) with 492. change (1969 / 100) with 19. change (1969 / 400) with 4.
  rewrite u64_small; [|unfold two64; destruct (leap y)]; lia.
Qed.

Lemma time_fields y m d x t : 0 <= y <= 90000 -> valid_date y m d -> 0 <= x < 86400 ->
  t_unix t + loc_offset (t_loc t) = 86400 * day_number y m d + x ->
  t_date t = (y, m, d) /\ t_clock t = (x / 3600, x mod 3600 / 60, x mod 60).
Proof.
  intros Hy Hd Hx E. pose proof (time_abs y m d x t Hy Hd Hx E) as HA. split.
  - unfold t_date. rewrite HA. unfold abs_year_yday, seconds_per_day.
    set (DD := 146097 * cycles + year_start y + (month_start y m + (d - 1))).
    replace ((86400 * DD + x) / 86400) with DD by (apply Z.div_unique with (r := x); lia).
    pose proof (year_from_days y (month_start y m + (d - 1)) ltac:(lia) (yday_bound y m d Hd)) as HY.
    cbv zeta in HY |- *. fold DD in HY. clearbody DD.
    unfold days_per_400_years, days_per_100_years, days_per_4_years.
    destruct HY as [HY1 HY2]. rewrite HY1, HY2.
    replace (i64 (i64 (y - 1 + 400 * cycles) + absolute_zero_year)) with y.
    + rewrite month_day_spec by (auto; lia). reflexivity.
    + unfold i64, absolute_zero_year, cycles, two63, two64.
      rewrite (Z.mod_small (y - 1 + 400 * 730692556 + _)) by lia. rewrite Z.mod_small; lia.
  - unfold t_clock. rewrite HA. unfold seconds_per_day.
    replace ((86400 * (146097 * cycles + year_start y + (month_start y m + (d - 1))) + x) mod 86400) with x; [reflexivity|].
    symmetry. rewrite Z.mul_comm, Z.add_comm, Z.mod_add by lia. apply Z.mod_small; lia.
Qed.

(** * What a returned time is *)

(** a time whose fields are those of a date and time of day between 0000 and 9999 *)
Definition fields_of (t : time) (y m d h mi s : Z) : Prop :=
  0 <= y <= 9999 /\ valid_date y m d /\ 0 <= h <= 23 /\ 0 <= mi <= 59 /\ 0 <= s <= 59 /\
  t = go_date y m d h mi s (t_loc t).

Lemma zero_fields : fields_of zero_time 1 1 1 0 0 0.
Proof. repeat split; try lia. cbn; lia. Qed.

Lemma local_range now d t : denotes now d t ->
  Z.abs (loc_offset (t_loc t)) <= 1000000 /\
  86400 * (day_number 0 1 1 - 1) <= t_unix t + loc_offset (t_loc t) <= 86400 * (day_number 9999 12 31 + 200).
Proof.
  intros D. destruct (denotes_unix _ _ _ D) as (k & K & Z & U). apply zone_bound in Z. split; [exact Z|]. rewrite U.
  destruct D as (_ & Dd & Dy & Dh & Dm & Ds & _).
  assert (W : forall l, ndigits 1 l \/ ndigits 2 l -> 0 <= num l <= 99) by (intros l [L|L]; apply num_bounds in L; cbn in L; lia).
  apply W in Dd, Dh. assert (Hm : 0 <= num (d_min d) <= 99) by (apply W; auto).
  assert (Hs : 0 <= num (d_sec d) <= 99) by (destruct Ds as [->|Ds]; [cbn; lia | apply W; auto]).
  apply (year_bound now) in Dy. set (y := year_num now (d_year d)) in *.
  assert (Hk : (k < 12)%nat) by (apply (nth_error_Some month_names); congruence).
  assert (MS : 0 <= month_start y (Z.of_nat k + 1) <= 335).
  { rewrite month_start_spec by lia. assert (Hk' : 1 <= Z.of_nat k + 1 <= 12) by lia. generalize dependent (Z.of_nat k + 1). intros m _ Hm'.
    months m Hm'; compute_db; destruct (leap y); cbn [andb Z.leb Z.compare Pos.compare Pos.compare_cont]; lia. }
  assert (Y0 : year_start 0 <= year_start y <= year_start 9999) by (split; apply year_start_mono; lia).
  unfold day_number. change (month_start 0 1) with 0. change (month_start 9999 12) with 334. lia.
Qed.

Lemma year_minus_one t : t_unix t + loc_offset (t_loc t) < 86400 * day_number 0 1 1 ->
  86400 * (day_number 0 1 1 - 1) <= t_unix t + loc_offset (t_loc t) -> t_date t = (-1, 12, 31).
Proof.
  intros H1 H2. unfold t_date. replace (abs_year_yday (t_abs t)) with (-1, 364); [reflexivity|].
  assert (A : t_abs t / 86400 = 106751990353565).
  { unfold t_abs. change (day_number 0 1 1) with (-719528) in *. unfold unix_to_internal, internal_to_absolute, absolute_to_internal, internal_to_unix.
    change (1969 / 4) with 492. change (1969 / 100) with 19. change (1969 / 400) with 4. rewrite u64_small by (unfold two64; lia). Z.to_euclidean_division_equations. lia. }
  unfold abs_year_yday, seconds_per_day. rewrite A. reflexivity.
Qed.

Lemma go_date_loc y m d h mi s l : t_loc (go_date y m d h mi s l) = l.
Proof. unfold go_date. destruct (norm y (m - 1) 12). destruct (norm mi s 60). destruct (norm h z1 60). destruct (norm d z3 24). reflexivity. Qed.

Lemma accepted_fields e x t y m d : ParseDateTime e x = Ret t None -> t_date t = (y, m, d) -> 0 <= y <= 9999 ->
  exists h mi s, fields_of t y m d h mi s /\ t_clock t = (h, mi, s) /\ exists z, zone_text z (t_loc t).
Proof.
  intros H T Hy. destruct x as [|b x].
  { cbn in H. injection H as <-. change (t_date zero_time) with (1, 1, 1) in T. injection T as <- <- <-.
    exists 0, 0, 0. split; [exact zero_fields|]. split; [reflexivity|]. exists []. constructor. }
  apply accepted_reading in H as [dt [_ D]]; [|discriminate]. destruct (local_range _ _ _ D) as [B [R1 R2]].
  destruct (denotes_unix _ _ _ D) as (_ & _ & Z & _).
  destruct (Z.ltb_spec (t_unix t + loc_offset (t_loc t)) (86400 * day_number 0 1 1)) as [L|L].
  { rewrite (year_minus_one t L R1) in T. injection T as <- <- <-. lia. }
  set (N := t_unix t + loc_offset (t_loc t)) in *. set (x0 := N mod 86400). set (D0 := N / 86400).
  assert (EN : N = 86400 * D0 + x0 /\ 0 <= x0 < 86400) by (unfold D0, x0; clear; Z.to_euclidean_division_equations; lia). destruct EN as [EN Hx].
  destruct (some_date (Z.to_nat (D0 - day_number 0 1 1))) as (y' & m' & d' & Hy' & V & E).
  assert (HD : day_number 0 1 1 <= D0 <= day_number 9999 12 31 + 200) by lia. rewrite Z2Nat.id in E by lia.
  assert (E' : day_number y' m' d' = D0) by lia. clear E. rewrite <- E' in EN.
  assert (Hy'' : y' <= 90000).
  { destruct (Z.leb_spec y' 90000); [assumption|]. pose proof (date_bounds _ _ _ V) as DB. pose proof (year_start_mono 90000 y' ltac:(lia) ltac:(lia)). exfalso.
    change (day_number 9999 12 31) with 2932896 in HD. change (year_start 90000) with 32871459 in *. change (year_start 1970) with 719162 in *. lia. }
  destruct (time_fields y' m' d' x0 t ltac:(lia) V Hx EN) as [T' C]. rewrite T' in T. injection T as -> -> ->.
  exists (x0 / 3600), (x0 mod 3600 / 60), (x0 mod 60). split; [|split; [exact C | eauto]].
  pose proof V as [Vm Vd]. pose proof (month_length_bounds y m Vm).
  assert (F : 0 <= x0 / 3600 <= 23 /\ 0 <= x0 mod 3600 / 60 <= 59 /\ 0 <= x0 mod 60 <= 59 /\ 3600 * (x0 / 3600) + 60 * (x0 mod 3600 / 60) + x0 mod 60 = x0) by (clear - Hx; Z.to_euclidean_division_equations; lia).
  destruct F as (F1 & F2 & F3 & F4). do 5 (split; [assumption|]). rewrite go_date_unix by lia. destruct t as [u l]. cbn [t_loc t_unix] in *. f_equal. lia.
Qed.

(** * Numbers *)

Lemma digits1 k n : 0 <= n <= 9 -> digits (S k) n = [Z.to_N (48 + n)].
Proof. intros H. cbn [digits]. destruct (Z.ltb_spec n 10); [reflexivity | lia]. Qed.

Lemma digits_more k n : 10 <= n -> digits (S k) n = digits k (n / 10) ++ [Z.to_N (48 + n mod 10)].
Proof. intros H. cbn [digits]. destruct (Z.ltb_spec n 10); [lia | reflexivity]. Qed.

Lemma append2 n : 0 <= n <= 99 -> append_int n 2 = pad2 n.
Proof.
  intros H. unfold append_int, pad2. rewrite Z.abs_eq by lia. destruct (Z.ltb_spec n 0); [lia|]. destruct (Z.ltb_spec n 10).
  - rewrite digits1 by lia. rewrite Z.div_small, Z.mod_small by lia. reflexivity.
  - rewrite digits_more by lia. rewrite digits1 by (Z.to_euclidean_division_equations; lia). reflexivity.
Qed.

Lemma append1 n : 0 <= n <= 99 -> (ndigits 1 (append_int n 0) \/ ndigits 2 (append_int n 0)) /\ num (append_int n 0) = n.
Proof.
  intros H. destruct (Z.ltb_spec n 10).
  - assert (E : append_int n 0 = [Z.to_N (48 + n)]) by (unfold append_int; rewrite Z.abs_eq by lia; destruct (Z.ltb_spec n 0); [lia|]; rewrite digits1 by lia; reflexivity).
    rewrite E. split; [left; split; [reflexivity|]; constructor; [unfold is_dig; lia | constructor]|]. unfold num. cbn [fold_left]. lia.
  - assert (E : append_int n 0 = pad2 n).
    { rewrite <- append2 by lia. unfold append_int. rewrite Z.abs_eq by lia. destruct (Z.ltb_spec n 0); [lia|]. rewrite digits_more by lia. rewrite digits1 by (Z.to_euclidean_division_equations; lia). reflexivity. }
    rewrite E. destruct (pad2_digits n H). auto.
Qed.

Lemma append4 n : 0 <= n <= 9999 -> append_int n 4 = pad4 n.
Proof.
  intros H. unfold append_int, pad4, pad2. rewrite Z.abs_eq by lia. destruct (Z.ltb_spec n 0); [lia|].
  assert (E : forall a b c d, a = n / 100 / 10 -> b = (n / 100) mod 10 -> c = n mod 100 / 10 -> d = (n mod 100) mod 10 ->
    [] ++ repeat 48%N (4 - length (digits 20 n)) ++ digits 20 n = [Z.to_N (48 + a); Z.to_N (48 + b); Z.to_N (48 + c); Z.to_N (48 + d)]).
  { intros a b c d Ha Hb Hc Hd. destruct (Z.ltb_spec n 10).
    { rewrite digits1 by lia. assert (a = 0 /\ b = 0 /\ c = 0 /\ d = n) as (-> & -> & -> & ->) by (Z.to_euclidean_division_equations; lia). reflexivity. }
    rewrite digits_more by lia. destruct (Z.ltb_spec n 100).
    { rewrite digits1 by (Z.to_euclidean_division_equations; lia). assert (a = 0 /\ b = 0 /\ c = n / 10 /\ d = n mod 10) as (-> & -> & -> & ->) by (Z.to_euclidean_division_equations; lia). reflexivity. }
    rewrite digits_more by (Z.to_euclidean_division_equations; lia). destruct (Z.ltb_spec n 1000).
    { rewrite digits1 by (Z.to_euclidean_division_equations; lia). assert (a = 0 /\ b = n / 10 / 10 /\ c = (n / 10) mod 10 /\ d = n mod 10) as (-> & -> & -> & ->) by (Z.to_euclidean_division_equations; lia). reflexivity. }
    rewrite digits_more by (Z.to_euclidean_division_equations; lia). rewrite digits1 by (Z.to_euclidean_division_equations; lia).
    assert (a = n / 10 / 10 / 10 /\ b = (n / 10 / 10) mod 10 /\ c = (n / 10) mod 10 /\ d = n mod 10) as (-> & -> & -> & ->) by (Z.to_euclidean_division_equations; lia). reflexivity. }
  exact (E _ _ _ _ eq_refl eq_refl eq_refl eq_refl).
Qed.

Lemma weekday_name t : In (to_lower (nth (Z.to_nat (t_weekday t)) short_days [])) day_names /\ nth (Z.to_nat (t_weekday t)) short_days [] <> [].
Proof.
  assert (H : 0 <= t_weekday t <= 6) by (unfold t_weekday; generalize (u64 (t_abs t + 86400)); intros; Z.to_euclidean_division_equations; lia).
  assert (E : t_weekday t = 0 \/ t_weekday t = 1 \/ t_weekday t = 2 \/ t_weekday t = 3 \/ t_weekday t = 4 \/ t_weekday t = 5 \/ t_weekday t = 6) by lia.
  split; repeat (destruct E as [-> | E]); try rewrite E; try discriminate; cbn; tauto.
Qed.

(** The day name is that of the date: 1 January 1970 was a Thursday. *)
Lemma weekday_spec t y m d h mi s : fields_of t y m d h mi s -> Z.abs (loc_offset (t_loc t)) <= 1000000 -> t_weekday t = (day_number y m d + 4) mod 7.
Proof.
  intros (Hy & V & Hh & Hm & Hs & E) B. pose proof V as [Vm Vd]. pose proof (month_length_bounds y m Vm).
  assert (U : t_unix t + loc_offset (t_loc t) = 86400 * day_number y m d + (3600 * h + 60 * mi + s)).
  { rewrite go_date_unix in E by lia. apply (f_equal t_unix) in E. cbn [t_unix] in E. lia. }
  pose proof (time_abs y m d (3600 * h + 60 * mi + s) t ltac:(lia) V ltac:(lia) U) as A. unfold t_weekday. rewrite A. unfold day_number. change (year_start 1970) with 719162.
  set (q := year_start y + (month_start y m + (d - 1))).
  assert (Q : -400 <= q <= 4000000) by (unfold q; pose proof (yday_bound y m d V); assert (-366 <= year_start y <= 3700000) by (unfold year_start; clear - Hy; Z.to_euclidean_division_equations; lia); destruct (leap y); lia).
  replace (year_start y + month_start y m + (d - 1)) with q by (unfold q; lia). replace (146097 * cycles + year_start y + (month_start y m + (d - 1))) with (146097 * cycles + q) by (unfold q; lia). clearbody q.
  unfold cycles. rewrite u64_small by (unfold two64; lia). replace (q - 719162 + 4) with (q - 719158) by lia.
  assert (R : q - 719158 = 7 * ((q - 719158) / 7) + (q - 719158) mod 7) by (apply Z.div_mod; lia).
  assert (R' : 0 <= (q - 719158) mod 7 < 7) by (apply Z.mod_pos_bound; lia).
  set (c := (q - 719158) / 7) in *. set (r := (q - 719158) mod 7) in *. clearbody c r. assert (Eq : q = 719158 + 7 * c + r) by lia. subst q. clear R.
  set (x := 3600 * h + 60 * mi + s). assert (Hx : 0 <= x < 86400) by (unfold x; lia). clearbody x.
  assert (M : (86400 * (146097 * 730692556 + (719158 + 7 * c + r)) + x + 86400) mod 604800 = 86400 * r + x).
  { symmetry. apply Z.mod_unique with (q := 20871 * 730692556 + 102737 + c); lia. }
  rewrite M. symmetry. apply Z.div_unique with (r := x); lia.
Qed.

(** * Formatting and parsing *)

Definition text_of (dow day mon year hour min sec zone : gostring) : gostring :=
  dow ++ bs ", " ++ day ++ bs " " ++ mon ++ bs " " ++ year ++ bs " " ++ hour ++ bs ":" ++ min ++ bs ":" ++ sec ++ bs " " ++ zone.

Lemma text_parses e t y m d h mi s day zone l : fields_of t y m d h mi s -> Z.abs (loc_offset (t_loc t)) <= 1000000 ->
  (ndigits 1 day \/ ndigits 2 day) -> num day = d -> zone_text zone l -> zone <> [] -> loc_offset l = loc_offset (t_loc t) ->
  ParseDateTime e (text_of (nth (Z.to_nat (t_weekday t)) short_days []) day (month_abbr m) (pad4 y) (pad2 h) (pad2 mi) (pad2 s) zone) = Ret (mkTime (t_unix t) l) None.
Proof.
  intros (Hy & V & Hh & Hm & Hs & E) B Dd Nd Z Zn O. pose proof V as [Vm Vd]. pose proof (month_length_bounds y m Vm).
  destruct (weekday_name t) as [W Wn]. set (dow := nth (Z.to_nat (t_weekday t)) short_days []) in *. clearbody dow.
  destruct (pad4_digits y Hy) as [PY NY]. destruct (pad2_digits h) as [PH NH]; [lia|]. destruct (pad2_digits mi) as [PM NM]; [lia|]. destruct (pad2_digits s) as [PS NS]; [lia|].
  assert (HD : denotes (now_of e) (mkDate dow day (month_abbr m) (pad4 y) (pad2 h) (pad2 mi) (pad2 s) zone) (go_date y m d h mi s l)).
  { unfold denotes. cbn [d_dow d_day d_mon d_year d_hour d_min d_sec d_zone].
    refine (conj (or_intror W) (conj Dd (conj (or_intror PY) (conj (or_intror PH) (conj PM (conj (or_intror PS) _)))))).
    exists (Z.to_nat (m - 1)), l. split; [now apply month_abbr_names|]. split; [exact Z|].
    unfold year_num. destruct PY as [PL _]. rewrite PL. cbn [Nat.eqb]. rewrite Nd, NY, NH, NM, NS. f_equal. lia. }
  apply canon_accepted in HD.
  assert (G : go_date y m d h mi s l = mkTime (t_unix t) l).
  { rewrite go_date_unix in E by lia. rewrite go_date_unix by lia. f_equal. apply (f_equal t_unix) in E. cbn [t_unix] in E. rewrite O. lia. }
  rewrite G in HD. rewrite <- HD. f_equal. unfold text_of, canon. cbn [d_dow d_day d_mon d_year d_hour d_min d_sec d_zone].
  destruct dow as [|c dow]; [congruence|]. destruct zone as [|z zone]; [congruence|]. rewrite <- (app_assoc (c :: dow)). unfold pad2 at 6. reflexivity.
Qed.

Lemma num_zone_text off : Z.abs off < 360000 -> off mod 60 = 0 -> zone_text (num_zone off) (Fixed (num_zone off) off) /\ num_zone off <> [].
Proof.
  intros H M. unfold num_zone. set (z := Z.quot off 60). assert (Ez : off = 60 * z) by (unfold z; Z.to_euclidean_division_equations; lia). assert (Bz : Z.abs z < 6000) by lia. clearbody z. subst off.
  rewrite Z.quot_div_nonneg by lia. rewrite Z.rem_mod_nonneg by lia. set (a := Z.abs z / 60). set (b := Z.abs z mod 60).
  assert (A : 0 <= a <= 99 /\ 0 <= b <= 59 /\ Z.abs z = 60 * a + b) by (unfold a, b; clear - Bz; Z.to_euclidean_division_equations; lia). destruct A as (Ha & Hb & Ea). clearbody a b.
  rewrite !append2 by lia. destruct (pad2_digits a) as [[_ Fa] _]; [lia|]. destruct (pad2_digits b) as [[_ Fb] _]; [lia|].
  assert (F : Forall is_dig (pad2 a ++ pad2 b)) by (apply Forall_app; auto). unfold pad2 in *. cbn [app] in F |- *. split; [|destruct (z <? 0); discriminate].
  destruct (Z.ltb_spec z 0).
  - match goal with |- zone_text _ (Fixed _ ?v) => replace v with
        (- (((Z.of_N (Z.to_N (48 + a / 10)) - 48) * 10 + (Z.of_N (Z.to_N (48 + a mod 10)) - 48)) * 3600 +
            ((Z.of_N (Z.to_N (48 + b / 10)) - 48) * 10 + (Z.of_N (Z.to_N (48 + b mod 10)) - 48)) * 60))%Z end; [exact (Z_minus _ _ _ _ F)|].
    rewrite !Z2N.id by (Z.to_euclidean_division_equations; lia). Z.to_euclidean_division_equations; lia.
  - match goal with |- zone_text _ (Fixed _ ?v) => replace v with
        ((((Z.of_N (Z.to_N (48 + a / 10)) - 48) * 10 + (Z.of_N (Z.to_N (48 + a mod 10)) - 48)) * 3600 +
            ((Z.of_N (Z.to_N (48 + b / 10)) - 48) * 10 + (Z.of_N (Z.to_N (48 + b mod 10)) - 48)) * 60))%Z end; [exact (Z_plus _ _ _ _ F)|].
    rewrite !Z2N.id by (Z.to_euclidean_division_equations; lia). Z.to_euclidean_division_equations; lia.
Qed.

Lemma zone_minutes z l : zone_text z l -> loc_offset l mod 60 = 0.
Proof.
  destruct 1 as [|? ? ? ? _|? ? ? ? _|? ? ? ? _|n hours _]; cbn [loc_offset]; [reflexivity| | | |]; Z.to_euclidean_division_equations; lia.
Qed.

Lemma zone_back z n o : zone_text z (Fixed n o) -> zone_text n (Fixed n o) /\ n <> [].
Proof.
  intros H. remember (Fixed n o) as l eqn:E. destruct H as [|? ? ? ? F|? ? ? ? F|? ? ? ? F|n' hours I]; try discriminate E; injection E as <- <-.
  - split; [now constructor | discriminate].
  - split; [now constructor | discriminate].
  - split; [now constructor | discriminate].
  - split; [now constructor|]. intros ->. cbn in I. repeat (destruct I as [I|I]; [discriminate I|]). contradiction.
Qed.

Lemma month_names_agree m : nth (Z.to_nat (m - 1)) short_months [] = month_abbr m.
Proof. reflexivity. Qed.

Lemma format_fields t y m d h mi s : t_date t = (y, m, d) -> t_clock t = (h, mi, s) ->
  go_format RFC1123 t = text_of (nth (Z.to_nat (t_weekday t)) short_days []) (append_int d 2) (month_abbr m) (append_int y 4) (append_int h 2) (append_int mi 2) (append_int s 2) (format_chunk t CZone) /\
  go_format RFC1123Z t = text_of (nth (Z.to_nat (t_weekday t)) short_days []) (append_int d 2) (month_abbr m) (append_int y 4) (append_int h 2) (append_int mi 2) (append_int s 2) (num_zone (t_zone_offset t)) /\
  go_format mail_layout t = text_of (nth (Z.to_nat (t_weekday t)) short_days []) (append_int d 0) (month_abbr m) (append_int y 4) (append_int h 2) (append_int mi 2) (append_int s 2) (num_zone (t_zone_offset t)).
Proof.
  intros D C. unfold go_format, RFC1123, RFC1123Z, mail_layout, text_of. cbn [flat_map]. unfold format_chunk. rewrite D, C. rewrite !app_nil_r. auto.
Qed.

(** C55: a returned time with a four-digit year, formatted with Go's layouts for mail and parsed
    again, is the same instant with the same offset; with the zone's name in the layout, the name
    is the same too, and the result is equal unless the zone was UTC itself. *)
Theorem C55_dates_survive_formatting : forall (e e' : env) (x : gostring) (t : time) (y m d : Z),
  ParseDateTime e x = Ret t None -> t_date t = (y, m, d) -> 0 <= y <= 9999 ->
  (exists t', ParseDateTime e' (go_format RFC1123 t) = Ret t' None /\
     t_unix t' = t_unix t /\ t_zone_offset t' = t_zone_offset t /\ t_zone_name t' = t_zone_name t /\ (t_loc t <> UTC -> t' = t)) /\
  (Z.abs (t_zone_offset t) < 100 * 3600 -> forall layout, In layout [RFC1123Z; mail_layout] ->
   exists t', ParseDateTime e' (go_format layout t) = Ret t' None /\
     t_unix t' = t_unix t /\ t_zone_offset t' = t_zone_offset t).
Proof.
  intros e e' x t y m d H T Hy. destruct (accepted_fields e x t y m d H T Hy) as (h & mi & s & F & C & z & Z).
  pose proof (zone_bound _ _ Z) as B. pose proof F as (_ & V & Hh & Hm & Hs & _). pose proof V as [Vm Vd]. pose proof (month_length_bounds y m Vm).
  destruct (format_fields t y m d h mi s T C) as (E1 & E2 & E3). destruct (pad2_digits d ltac:(lia)) as [PD ND].
  split.
  - rewrite E1, !append2, append4 by lia.
    assert (K : exists l, zone_text (format_chunk t CZone) l /\ format_chunk t CZone <> [] /\ loc_offset l = loc_offset (t_loc t) /\ t_zone_name (mkTime (t_unix t) l) = t_zone_name t /\ (t_loc t <> UTC -> l = t_loc t)).
    { assert (EZ : format_chunk t CZone = match t_zone_name t with [] => num_zone (t_zone_offset t) | n => n end) by (unfold format_chunk; rewrite T, C; reflexivity). rewrite EZ. unfold t_zone_name. cbn [t_loc].
      destruct (t_loc t) as [|n o] eqn:L.
      - exists (Fixed (bs "UTC") 0). split; [apply (Z_name (bs "UTC") 0); cbn; tauto|]. split; [discriminate|]. split; [reflexivity|]. split; [reflexivity | congruence].
      - apply zone_back in Z as [Z Zn]. exists (Fixed n o). destruct n as [|c n]; [congruence|]. split; [exact Z|]. split; [discriminate|]. split; [reflexivity|]. split; reflexivity. }
    destruct K as (l & K1 & K2 & K3 & K4 & K5). eexists. split; [eapply (text_parses e' t y m d h mi s (pad2 d) _ l); eauto|]. split; [reflexivity|]. split; [exact K3|]. split; [exact K4|].
    intros U. rewrite (K5 U). now destruct t.
  - intros O layout I. destruct (num_zone_text (t_zone_offset t) O (zone_minutes _ _ Z)) as [K1 K2].
    destruct I as [<-|[<-|[]]].
    + rewrite E2, !append2, append4 by lia. eexists. split; [eapply (text_parses e' t y m d h mi s (pad2 d)); eauto|]. split; reflexivity.
    + rewrite E3, !append2, append4 by lia. destruct (append1 d ltac:(lia)) as [PD1 ND1]. eexists. split; [eapply (text_parses e' t y m d h mi s (append_int d 0)); eauto|]. split; reflexivity.
Qed.

(** ** Concrete cases *)

Definition env20 : env := mkEnv (mkWenv 2020 None) SkipBad.

(** 31 February, 25 o'clock, minute 61, second 99: 4 March, a Thursday. *)
Example C55_met : exists t, ParseDateTime env20 (bs "31 Feb 2021 25:61:99 pST") = Ret t None /\
  t_date t = (2021, 3, 4) /\ t_loc t <> UTC /\ Z.abs (t_zone_offset t) < 100 * 3600 /\
  go_format RFC1123 t = bs "Thu, 04 Mar 2021 02:02:39 pST" /\
  go_format RFC1123Z t = bs "Thu, 04 Mar 2021 02:02:39 -0800" /\
  go_format mail_layout t = bs "Thu, 4 Mar 2021 02:02:39 -0800".
Proof. eexists. split; [vm_compute; reflexivity|]. split; [vm_compute; reflexivity|]. split; [discriminate|]. split; [vm_compute; reflexivity|]. split; [|split]; vm_compute; reflexivity. Qed.

(** The conditions are needed: an offset of 100 hours or more takes five digits, and so does the
    year 10000; both can be had from an accepted text. *)
Theorem C55_fails_for_long_offsets : exists t, ParseDateTime env20 (bs "1 Jan 2000 00:00 +9999") = Ret t None /\
  t_date t = (2000, 1, 1) /\ go_format RFC1123Z t = bs "Sat, 01 Jan 2000 00:00:00 +10039" /\
  ParseDateTime env20 (go_format RFC1123Z t) = Ret zero_time (Some ESyntax).
Proof. eexists. split; [vm_compute; reflexivity|]. split; [|split]; vm_compute; reflexivity. Qed.

Theorem C55_fails_for_the_year_10000 : exists t, ParseDateTime env20 (bs "31 Dec 9999 24:00") = Ret t None /\
  t_date t = (10000, 1, 1) /\ go_format RFC1123 t = bs "Sat, 01 Jan 10000 00:00:00 UTC" /\
  ParseDateTime env20 (go_format RFC1123 t) = Ret zero_time (Some ESyntax).
Proof. eexists. split; [vm_compute; reflexivity|]. split; [|split]; vm_compute; reflexivity. Qed.

(** ... and the year before 0000 *)
Theorem C55_fails_before_the_year_0 : exists t, ParseDateTime env20 (bs "00 Jan 0000 00:00") = Ret t None /\
  t_date t = (-1, 12, 31) /\ go_format RFC1123 t = bs "Fri, 31 Dec -0001 00:00:00 UTC" /\
  ParseDateTime env20 (go_format RFC1123 t) = Ret zero_time (Some ESyntax).
Proof. eexists. split; [vm_compute; reflexivity|]. split; [|split]; vm_compute; reflexivity. Qed.
