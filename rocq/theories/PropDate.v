(** C34-C43 and C46: what an accepted date-time means.

    Vocabulary (all in DateSpec.v, on characters): [strip_text s] is the input without comments and
    white space; [spell d] is the text of the parts [d]; [wf_date d] says the parts are well formed;
    [canon d] is the usual way to write them; [denotes now d t]: [t] is the time they stand for when
    the current year is [now]; [day_number] is the proleptic Gregorian calendar. *)
From Coq Require Import String List NArith ZArith Bool Arith Lia.
From Verif Require Import Lexer Grammar Utf8 Utf8Facts Strs Mime GoTime Parser Walker Api Spec ParserFacts
  WalkerFacts Static Total Cfws DateSpec LexFacts LangFacts Dates Calendar DateText DateAccept First.
Import ListNotations.

Definition now_of (e : env) : Z := now_year (wenv_of e).

(** ** From trees to inputs *)
Lemma tree_time e s ch : derives (body R_dateTime) ch -> yields ch = tokens e s ->
  exists d, strip_text s = spell d /\ denotes (now_of e) d (time_value (wenv_of e) ch).
Proof.
  intros D Y.
  assert (Hok : toks_ok ch) by (unfold toks_ok; rewrite Y; apply lex_ok).
  destruct (date_tree (wenv_of e) ch D Hok) as (u & k & d & E & HK & T & HD).
  exists d. split; [|exact HD]. rewrite <- T.
  assert (HL : lang (Nt R_dateTime) (tokens e s)) by (apply lang_nt; exists ch; auto).
  rewrite (accepted_tokens e s _ HL), E in Y.
  apply app_inj_tail in Y as [-> _].
  rewrite tscan_strip by apply toks_lexed. unfold strip_text. now rewrite map_tr_tok_of.
Qed.

Lemma accepted_reading e s t : s <> [] -> ParseDateTime e s = Ret t None ->
  exists d, strip_text s = spell d /\ denotes (now_of e) d t.
Proof.
  intros Hs H. destruct (parse_date_time_cases e s) as [[E _]|[[_ [_ E]]|[_ [ch [_ [D [Y [_ E]]]]]]]].
  - contradiction.
  - rewrite E in H. discriminate.
  - rewrite E in H. injection H as <-. now apply tree_time.
Qed.

Lemma strip_text_canon d : wf_date d -> strip_text (canon d) = spell d.
Proof.
  intros H. destruct (strip_canon d H) as (E & A & _). unfold strip_text.
  rewrite decode_all_ascii, ascii_bmp by assumption. exact E.
Qed.

Lemma canon_accepted e d t : denotes (now_of e) d t -> ParseDateTime e (canon d) = Ret t None.
Proof.
  intros HD. pose proof (denotes_wf _ _ _ HD) as HW. destruct (strip_canon d HW) as (E & A & N).
  pose proof (canon_lang d HW) as HL. rewrite <- (tokens_ascii e _ A) in HL.
  destruct (parse_date_time_cases e (canon d)) as [[E0 _]|[[_ [NL _]]|[_ [ch [_ [D [Y [_ R]]]]]]]].
  - contradiction.
  - contradiction.
  - rewrite R. destruct (tree_time e _ ch D Y) as [d' [S' HD']].
    rewrite strip_text_canon in S' by assumption.
    destruct (reading_unique _ _ _ _ _ HD HD' S') as [_ <-]. reflexivity.
Qed.

(** C34 *)
Theorem C34_read_from_stripped_text :
  (* an accepted input is a well-formed text after deleting comments and white space, and the
     result is what this text denotes *)
  (forall e s t, s <> [] -> ParseDateTime e s = Ret t None ->
     exists d, strip_text s = spell d /\ denotes (now_of e) d t) /\
  (* a text has one reading only *)
  (forall now d1 d2 t1 t2, denotes now d1 t1 -> denotes now d2 t2 -> spell d1 = spell d2 ->
     d1 = d2 /\ t1 = t2) /\
  (* hence the result depends on the stripped text only *)
  (forall e s1 s2 t1 t2, s1 <> [] -> s2 <> [] -> strip_text s1 = strip_text s2 ->
     ParseDateTime e s1 = Ret t1 None -> ParseDateTime e s2 = Ret t2 None -> t1 = t2) /\
  (* every well-formed text is accepted when written in the usual way *)
  (forall e d t, denotes (now_of e) d t -> ParseDateTime e (canon d) = Ret t None) /\
  (* every parse tree of the input, not only the selected one, gives the result *)
  (forall e s tr, s <> [] -> derives (Nt R_dateTime) [tr] -> yields [tr] = tokens e s ->
     exists t, walk (wenv_of e) tr init_w = Some (mkW [] (ResTime t) None) /\
               ParseDateTime e s = Ret t None).
Proof.
  split; [|split; [|split; [|split]]].
  - apply accepted_reading.
  - apply reading_unique.
  - intros e s1 s2 t1 t2 N1 N2 E H1 H2.
    apply accepted_reading in H1 as [d1 [S1 D1]]; [|assumption].
    apply accepted_reading in H2 as [d2 [S2 D2]]; [|assumption].
    eapply reading_unique; eauto. congruence.
  - apply canon_accepted.
  - intros e s tr Hs D Y. apply derives_nt in D as [ch [E D]]. injection E as ->.
    rewrite yields_node in Y. exists (time_value (wenv_of e) ch).
    assert (Hok : toks_ok ch) by (unfold toks_ok; rewrite Y; apply lex_ok).
    split; [now apply walk_dateTime|].
    assert (HL : lang (Nt R_dateTime) (tokens e s)) by (apply lang_nt; exists ch; auto).
    destruct (parse_date_time_cases e s) as [[E0 _]|[[_ [NL _]]|[_ [ch' [_ [D' [Y' [_ R]]]]]]]].
    + contradiction.
    + contradiction.
    + rewrite R. destruct (tree_time e s ch D Y) as [d1 [S1 D1]]. destruct (tree_time e s ch' D' Y') as [d2 [S2 D2]].
      assert (ES : spell d1 = spell d2) by congruence.
      destruct (reading_unique _ _ _ _ _ D1 D2 ES) as [_ <-]. reflexivity.
Qed.

(** ** Ranges *)
Lemma num_bounds n l : ndigits n l -> (0 <= num l < 10 ^ Z.of_nat n)%Z.
Proof.
  intros [HL HF]. unfold num.
  assert (G : forall l, Forall is_dig l -> forall a k, (0 <= a < 10 ^ k)%Z -> (0 <= k)%Z ->
     (0 <= fold_left (fun a c => a * 10 + (Z.of_N c - 48)) l a < 10 ^ (k + Z.of_nat (length l)))%Z).
  { clear. induction 1 as [|c l Hc H IH]; intros a k Ha Hk; cbn [fold_left length].
    - now rewrite Nat2Z.inj_0, Z.add_0_r.
    - replace (k + Z.of_nat (S (length l)))%Z with ((k + 1) + Z.of_nat (length l))%Z by lia.
      apply IH; [|lia]. rewrite Z.pow_add_r, Z.pow_1_r by lia. unfold is_dig in Hc.
      generalize dependent (10 ^ k)%Z. intros; lia. }
  subst n. specialize (G l HF 0%Z 0%Z). rewrite Z.add_0_l in G. apply G; lia.
Qed.

Lemma zone_bound z l : zone_text z l -> (Z.abs (loc_offset l) <= 1000000)%Z.
Proof.
  intros [|h1 h2 m1 m2 F|h1 h2 m1 m2 F|h1 h2 m1 m2 F|n hours HI]; cbn [loc_offset].
  - lia.
  - inversion F as [|? ? F1 F']; subst. inversion F' as [|? ? F2 F'']; subst.
    inversion F'' as [|? ? F3 F3']; subst. inversion F3' as [|? ? F4 ?]; subst. unfold is_dig in *. lia.
  - inversion F as [|? ? F1 F']; subst. inversion F' as [|? ? F2 F'']; subst.
    inversion F'' as [|? ? F3 F3']; subst. inversion F3' as [|? ? F4 ?]; subst. unfold is_dig in *. lia.
  - inversion F as [|? ? F1 F']; subst. inversion F' as [|? ? F2 F'']; subst.
    inversion F'' as [|? ? F3 F3']; subst. inversion F3' as [|? ? F4 ?]; subst. unfold is_dig in *. lia.
  - assert (HB : Forall (fun p => Z.abs (snd p) <= 12)%Z zone_names) by (vm_compute; repeat constructor; discriminate).
    rewrite Forall_forall in HB. apply HB in HI. cbn [snd] in HI. lia.
Qed.

Lemma year_bound now l : ndigits 2 l \/ ndigits 4 l -> (0 <= year_num now l <= 9999)%Z.
Proof.
  intros [H|H]; pose proof (num_bounds _ _ H) as HB; destruct H as [HL _]; unfold year_num; rewrite HL.
  - cbn in HB. cbn [Nat.eqb]. destruct (Z.rem now 100 <? num l)%Z; lia.
  - cbn in HB. cbn [Nat.eqb]. lia.
Qed.

(** The instant a text denotes. *)
Lemma denotes_unix now d t : denotes now d t ->
  exists k, nth_error month_names k = Some (to_lower (d_mon d)) /\ zone_text (d_zone d) (t_loc t) /\
    t_unix t = (86400 * day_number (year_num now (d_year d)) (Z.of_nat k + 1) (num (d_day d))
                + 3600 * num (d_hour d) + 60 * num (d_min d) + num (d_sec d) - loc_offset (t_loc t))%Z.
Proof.
  intros (H1 & H2 & H3 & H4 & H5 & H6 & k & l & H7 & H8 & ->).
  exists k. split; [assumption|].
  rewrite go_date_unix; cbn [t_loc t_unix].
  - split; [assumption | reflexivity].
  - now apply year_bound.
  - assert (k < 12)%nat; [|lia]. change 12%nat with (length month_names). apply nth_error_Some. congruence.
  - destruct H2 as [H|H]; apply num_bounds in H; cbn in H; lia.
  - destruct H4 as [H|H]; apply num_bounds in H; cbn in H; lia.
  - apply num_bounds in H5; cbn in H5; lia.
  - destruct H6 as [->|H]; [cbn; lia|]. apply num_bounds in H; cbn in H; lia.
  - eapply zone_bound; eassumption.
Qed.

(** C35 *)
Theorem C35_instant : forall e s t, s <> [] -> ParseDateTime e s = Ret t None ->
  exists d k, strip_text s = spell d /\ wf_date d /\
    nth_error month_names k = Some (to_lower (d_mon d)) /\
    zone_text (d_zone d) (t_loc t) /\
    t_unix t = (86400 * day_number (year_num (now_of e) (d_year d)) (Z.of_nat k + 1) (num (d_day d))
                + 3600 * num (d_hour d) + 60 * num (d_min d) + num (d_sec d) - loc_offset (t_loc t))%Z.
Proof.
  intros e s t Hs H. apply accepted_reading in H as [d [S D]]; [|assumption].
  destruct (denotes_unix _ _ _ D) as [k [K [Z U]]]. exists d, k.
  exact (conj S (conj (denotes_wf _ _ _ D) (conj K (conj Z U)))).
Qed.

(** ** Formatting *)
Lemma pad2_digits n : (0 <= n <= 99)%Z -> ndigits 2 (pad2 n) /\ num (pad2 n) = n.
Proof.
  intros H. unfold pad2, ndigits, is_dig, num. cbn [fold_left length].
  split; [split; [reflexivity|]; repeat constructor; zify; Z.to_euclidean_division_equations; lia|].
  rewrite !Z2N.id by (Z.to_euclidean_division_equations; lia).
  Z.to_euclidean_division_equations; lia.
Qed.

Lemma pad4_digits n : (0 <= n <= 9999)%Z -> ndigits 4 (pad4 n) /\ num (pad4 n) = n.
Proof.
  intros H. unfold pad4.
  destruct (pad2_digits (n / 100)) as [[L1 D1] N1]; [Z.to_euclidean_division_equations; lia|].
  destruct (pad2_digits (n mod 100)) as [[L2 D2] N2]; [Z.to_euclidean_division_equations; lia|].
  split; [split; [reflexivity | apply Forall_app; auto]|].
  unfold num, pad2 in *. cbn [app fold_left] in *. Z.to_euclidean_division_equations; lia.
Qed.

Lemma month_abbr_names m : (1 <= m <= 12)%Z ->
  nth_error month_names (Z.to_nat (m - 1)) = Some (to_lower (month_abbr m)).
Proof.
  intros H.
  assert (E : (m = 1 \/ m = 2 \/ m = 3 \/ m = 4 \/ m = 5 \/ m = 6 \/ m = 7 \/ m = 8 \/ m = 9 \/
              m = 10 \/ m = 11 \/ m = 12)%Z) by lia.
  repeat (destruct E as [->|E]; [reflexivity|]). subst m. reflexivity.
Qed.

Lemma dow_nonempty l : In (to_lower l) day_names -> l <> [].
Proof. intros H. apply dow_len in H. eapply nonempty_len; eassumption. Qed.

(** C36 *)
Theorem C36_round_trip : forall e dow y m d h mi s west zh zm,
  In (to_lower dow) day_names ->
  (0 <= y <= 9999)%Z -> valid_date y m d ->
  (0 <= h <= 23)%Z -> (0 <= mi <= 59)%Z -> (0 <= s <= 59)%Z ->
  (0 <= zh <= 99)%Z -> (0 <= zm <= 59)%Z ->
  exists t, ParseDateTime e (rfc1123z dow y m d h mi s west zh zm) = Ret t None /\
    t_date t = (y, m, d) /\ t_clock t = (h, mi, s) /\
    t_zone_offset t = ((if west then -1 else 1) * (zh * 3600 + zm * 60))%Z.
Proof.
  intros e dow y m d h mi s west zh zm Hdow Hy Hv Hh Hmi Hs Hzh Hzm.
  assert (Hm : (1 <= m <= 12)%Z) by apply Hv.
  assert (Hd : (1 <= d <= 31)%Z).
  { destruct Hv as [_ Hv]. pose proof (month_length_bounds y m Hm). lia. }
  destruct (pad2_digits d) as [PD ND]; [lia|]. destruct (pad4_digits y Hy) as [PY NY].
  destruct (pad2_digits h) as [PH NH]; [lia|]. destruct (pad2_digits mi) as [PM NM]; [lia|].
  destruct (pad2_digits s) as [PS NS]; [lia|].
  destruct (pad2_digits zh) as [[_ PZ] NZ]; [lia|]. destruct (pad2_digits zm) as [[_ PW] NW]; [lia|].
  set (z := (if west then bs "-" else bs "+") ++ pad2 zh ++ pad2 zm).
  set (l := Fixed z ((if west then -1 else 1) * (zh * 3600 + zm * 60))).
  assert (HZ : zone_text z l).
  { assert (F : Forall is_dig (pad2 zh ++ pad2 zm)) by (apply Forall_app; auto).
    unfold pad2 in F. cbn [app] in F. unfold z, l. destruct west.
    - pose proof (Z_minus _ _ _ _ F) as HZ. unfold z, pad2. cbn [app] in *.
      match goal with |- zone_text _ (Fixed _ ?v) => replace v with
        (- (((Z.of_N (Z.to_N (48 + zh / 10)) - 48) * 10 + (Z.of_N (Z.to_N (48 + zh mod 10)) - 48)) * 3600 +
            ((Z.of_N (Z.to_N (48 + zm / 10)) - 48) * 10 + (Z.of_N (Z.to_N (48 + zm mod 10)) - 48)) * 60))%Z
      end; [exact HZ|].
      rewrite !Z2N.id by (Z.to_euclidean_division_equations; lia). Z.to_euclidean_division_equations; lia.
    - pose proof (Z_plus _ _ _ _ F) as HZ. unfold z, pad2. cbn [app] in *.
      match goal with |- zone_text _ (Fixed _ ?v) => replace v with
        (((Z.of_N (Z.to_N (48 + zh / 10)) - 48) * 10 + (Z.of_N (Z.to_N (48 + zh mod 10)) - 48)) * 3600 +
            ((Z.of_N (Z.to_N (48 + zm / 10)) - 48) * 10 + (Z.of_N (Z.to_N (48 + zm mod 10)) - 48)) * 60)%Z
      end; [exact HZ|].
      rewrite !Z2N.id by (Z.to_euclidean_division_equations; lia). Z.to_euclidean_division_equations; lia. }
  exists (go_date y m d h mi s l).
  assert (HD : denotes (now_of e) (mkDate dow (pad2 d) (month_abbr m) (pad4 y) (pad2 h) (pad2 mi) (pad2 s) z)
                 (go_date y m d h mi s l)).
  { unfold denotes. cbn [d_dow d_day d_mon d_year d_hour d_min d_sec d_zone].
    refine (conj (or_intror Hdow) (conj (or_intror PD) (conj (or_intror PY) (conj (or_intror PH)
              (conj PM (conj (or_intror PS) _)))))).
    exists (Z.to_nat (m - 1)), l. split; [now apply month_abbr_names|]. split; [exact HZ|].
    unfold year_num. destruct PY as [PL _]. rewrite PL. cbn [Nat.eqb].
    rewrite ND, NY, NH, NM, NS. f_equal. lia. }
  split.
  - pose proof (canon_accepted e _ _ HD) as HA.
    assert (EC : canon (mkDate dow (pad2 d) (month_abbr m) (pad4 y) (pad2 h) (pad2 mi) (pad2 s) z) =
                 rfc1123z dow y m d h mi s west zh zm).
    { unfold canon, rfc1123z. cbn [d_dow d_day d_mon d_year d_hour d_min d_sec d_zone].
      apply dow_nonempty in Hdow. destruct dow as [|c dow]; [congruence|].
      rewrite <- (app_assoc (c :: dow)). unfold z, pad2 at 4. destruct west; reflexivity. }
    now rewrite EC in HA.
  - apply go_date_fields; try assumption; try lia.
    cbn [l loc_offset]. destruct west; lia.
Qed.

(** C37 *)
Theorem C37_two_digit_years : forall e s t d, s <> [] -> (2000 <= now_of e <= 2099)%Z ->
  ParseDateTime e s = Ret t None -> strip_text s = spell d -> wf_date d -> length (d_year d) = 2%nat ->
  exists Y k,
    (* the year read is the only one in the window with these last two digits *)
    (now_of e - 99 <= Y <= now_of e)%Z /\ (Y mod 100 = num (d_year d))%Z /\
    (forall Y', now_of e - 99 <= Y' <= now_of e -> Y' mod 100 = num (d_year d) -> Y' = Y)%Z /\
    (* and the time is that of this year *)
    nth_error month_names k = Some (to_lower (d_mon d)) /\
    t_unix t = (86400 * day_number Y (Z.of_nat k + 1) (num (d_day d))
                + 3600 * num (d_hour d) + 60 * num (d_min d) + num (d_sec d) - loc_offset (t_loc t))%Z.
Proof.
  intros e s t d Hs Hnow H S W HL. apply accepted_reading in H as [d' [S' D]]; [|assumption].
  assert (d' = d) as ->. { apply spell_inj; [eapply denotes_wf; eassumption | assumption | congruence]. }
  destruct (denotes_unix _ _ _ D) as [k [K [Z U]]]. exists (year_num (now_of e) (d_year d)), k.
  destruct W as (_ & _ & Y & _). assert (N2 : ndigits 2 (d_year d)).
  { destruct Y as [Y|[Y _]]; [exact Y|]. rewrite HL in Y. discriminate. }
  apply num_bounds in N2. cbn in N2.
  assert (HY : (now_of e - 99 <= year_num (now_of e) (d_year d) <= now_of e /\
                (year_num (now_of e) (d_year d)) mod 100 = num (d_year d))%Z).
  { unfold year_num. rewrite HL. cbn [Nat.eqb]. rewrite Z.rem_mod_nonneg by lia.
    destruct (Z.ltb_spec (now_of e mod 100) (num (d_year d))); Z.to_euclidean_division_equations; lia. }
  split; [tauto|]. split; [tauto|]. split; [|auto].
  intros Y' H1 H2. destruct HY as [H3 H4]. Z.to_euclidean_division_equations; lia.
Qed.

(** Outside these years the window is wrong: in 2100 the year 50 is read as 1950, not 2050. *)
Example C37_fails_in_2100 :
  ParseDateTime (mkEnv (mkWenv 2100 None) SkipBad) (bs "1 Jan 50 0:00") =
  Ret (go_date 1950 1 1 0 0 0 UTC) None.
Proof. vm_compute. reflexivity. Qed.

(** C38 *)
Theorem C38_numeric_zones : forall e s t d, s <> [] -> ParseDateTime e s = Ret t None ->
  strip_text s = spell d -> wf_date d ->
  forall h1 h2 m1 m2, Forall is_dig [h1; h2; m1; m2] ->
  let seconds := (num [h1; h2] * 3600 + num [m1; m2] * 60)%Z in
  (d_zone d = bs "+" ++ [h1; h2; m1; m2] -> t_loc t = Fixed (bs "+" ++ [h1; h2; m1; m2]) seconds) /\
  (d_zone d = bs "-" ++ [h1; h2; m1; m2] -> t_loc t = Fixed (bs "-" ++ [h1; h2; m1; m2]) (- seconds)) /\
  (d_zone d = [h1; h2; m1; m2] -> t_loc t = Fixed (bs "+" ++ [h1; h2; m1; m2]) seconds).
Proof.
  intros e s t d Hs H S W h1 h2 m1 m2 F seconds. apply accepted_reading in H as [d' [S' D]]; [|assumption].
  assert (d' = d) as ->. { apply spell_inj; [eapply denotes_wf; eassumption | assumption | congruence]. }
  destruct (denotes_unix _ _ _ D) as [k [_ [Z _]]].
  split; [|split]; intros E; rewrite E in Z.
  - exact (zone_text_fun _ _ _ Z (Z_plus _ _ _ _ F)).
  - exact (zone_text_fun _ _ _ Z (Z_minus _ _ _ _ F)).
  - exact (zone_text_fun _ _ _ Z (Z_nosign _ _ _ _ F)).
Qed.

(** C39 *)
Theorem C39_zone_names :
  (* an accepted alphabetic zone is one of the RFC's names, in any case, with the RFC's offset *)
  (forall e s t d c r, s <> [] -> ParseDateTime e s = Ret t None -> strip_text s = spell d -> wf_date d ->
     d_zone d = c :: r -> letter c ->
     exists hours, In (to_lower (d_zone d), hours) zone_names /\
       t_loc t = Fixed (d_zone d) (hours * 3600)) /\
  (* and all of them are accepted, after any date and time *)
  (forall e d n hours, wf_date d -> In (to_lower n, hours) zone_names ->
     exists t, ParseDateTime e (canon (mkDate (d_dow d) (d_day d) (d_mon d) (d_year d) (d_hour d) (d_min d) (d_sec d) n)) = Ret t None /\
       t_loc t = Fixed n (hours * 3600)).
Proof.
  split.
  - intros e s t d c r Hs H S W E Hc. apply accepted_reading in H as [d' [S' D]]; [|assumption].
    assert (d' = d) as ->. { apply spell_inj; [eapply denotes_wf; eassumption | assumption | congruence]. }
    destruct (denotes_unix _ _ _ D) as [k [_ [Z _]]].
    inversion Z as [E0|h1 h2 m1 m2 F E0|h1 h2 m1 m2 F E0|h1 h2 m1 m2 F E0|n hours HI E0].
    + congruence.
    + exfalso. rewrite E in E0. injection E0 as <- _. revert Hc. unfold letter. vm_compute. intuition congruence.
    + exfalso. rewrite E in E0. injection E0 as <- _. revert Hc. unfold letter. vm_compute. intuition congruence.
    + exfalso. rewrite E in E0. injection E0 as <- _. inversion F; subst. eapply dig_letter; eassumption.
    + eauto.
  - intros e d n hours (H1 & H2 & H3 & H4 & H5 & H6 & H7 & _) HI.
    set (d' := mkDate _ _ _ _ _ _ _ n).
    assert (W' : wf_date d').
    { refine (conj H1 (conj H2 (conj H3 (conj H4 (conj H5 (conj H6 (conj H7 _))))))).
      eexists. apply Z_name. exact HI. }
    destruct (wf_denotes (now_of e) _ W') as [t D]. exists t. split; [now apply canon_accepted|].
    destruct (denotes_unix _ _ _ D) as [k [_ [Z _]]].
    exact (zone_text_fun _ _ _ Z (Z_name _ _ HI)).
Qed.

(** C42 *)
Theorem C42_defaults : forall e s t d, s <> [] -> ParseDateTime e s = Ret t None ->
  strip_text s = spell d -> wf_date d ->
  (* without seconds: the time with seconds 00 *)
  (d_sec d = [] -> denotes (now_of e)
     (mkDate (d_dow d) (d_day d) (d_mon d) (d_year d) (d_hour d) (d_min d) (bs "00") (d_zone d)) t) /\
  (* without zone: UTC *)
  (d_zone d = [] -> t_loc t = UTC).
Proof.
  intros e s t d Hs H S W. apply accepted_reading in H as [d' [S' D]]; [|assumption].
  assert (d' = d) as ->. { apply spell_inj; [eapply denotes_wf; eassumption | assumption | congruence]. }
  split.
  - intros E. destruct D as (H1 & H2 & H3 & H4 & H5 & H6 & k & l & H7 & H8 & ->).
    refine (conj H1 (conj H2 (conj H3 (conj H4 (conj H5 (conj (or_intror _) _)))))).
    + split; [reflexivity|]. repeat constructor; vm_compute; discriminate.
    + exists k, l. cbn [d_mon d_zone d_year d_day d_hour d_min d_sec]. rewrite E. auto.
  - intros E. destruct (denotes_unix _ _ _ D) as [k [_ [Z _]]]. rewrite E in Z.
    exact (zone_text_fun _ _ _ Z Z_none).
Qed.

(** C43: day, hour, minute and second are not range-checked; the surplus is carried. *)
Theorem C43_out_of_range_carried : forall e dd mo yy hh mm ss k,
  ndigits 2 dd -> ndigits 2 hh -> ndigits 2 mm -> ndigits 2 ss -> ndigits 4 yy ->
  nth_error month_names k = Some (to_lower mo) ->
  exists t, ParseDateTime e (canon (mkDate [] dd mo yy hh mm ss [])) = Ret t None /\
    t_loc t = UTC /\
    t_unix t = (86400 * (day_number (num yy) (Z.of_nat k + 1) 1 + (num dd - 1))
                + 3600 * num hh + 60 * num mm + num ss)%Z.
Proof.
  intros e dd mo yy hh mm ss k HD HH HM HS HY HK.
  assert (D : denotes (now_of e) (mkDate [] dd mo yy hh mm ss [])
     (go_date (year_num (now_of e) yy) (Z.of_nat k + 1) (num dd) (num hh) (num mm) (num ss) UTC)).
  { refine (conj (or_introl eq_refl) (conj (or_intror HD) (conj (or_intror HY) (conj (or_intror HH)
       (conj HM (conj (or_intror HS) _)))))). exists k, UTC. split; [exact HK|]. split; [apply Z_none | reflexivity]. }
  eexists. split; [apply canon_accepted; exact D|]. split.
  - destruct (denotes_unix _ _ _ D) as [k' [_ [Z _]]]. exact (zone_text_fun _ _ _ Z Z_none).
  - rewrite go_date_unix; cbn [t_unix loc_offset].
    + unfold year_num. destruct HY as [HL _]. rewrite HL. cbn [Nat.eqb]. unfold day_number. lia.
    + apply year_bound. now right.
    + assert (k < 12)%nat; [|lia]. change 12%nat with (length month_names). apply nth_error_Some. congruence.
    + apply num_bounds in HD; cbn in HD; lia.
    + apply num_bounds in HH; cbn in HH; lia.
    + apply num_bounds in HM; cbn in HM; lia.
    + apply num_bounds in HS; cbn in HS; lia.
    + cbn. lia.
Qed.

(** 31 February, 25 o'clock, minute 61, second 99 of 2021 is 4 March, 02:02:39. *)
Example C43_example : exists t,
  ParseDateTime (mkEnv (mkWenv 2020 None) SkipBad) (bs "31 Feb 2021 25:61:99") = Ret t None /\
  t_date t = (2021, 3, 4)%Z /\ t_clock t = (2, 2, 39)%Z.
Proof. eexists. split; [vm_compute; reflexivity|]. split; vm_compute; reflexivity. Qed.

(** ** The hypotheses are met *)
Definition ex_text : gostring := bs "Fri, 21 Nov(c)97 9:55 pSt".
Definition ex_parts : date_text :=
  mkDate (bs "Fri") (bs "21") (bs "Nov") (bs "97") (bs "9") (bs "55") [] (bs "pSt").

(** C34, C35, C37, C39, C42 (seconds). *)
Example date_hypotheses_met :
  ex_text <> [] /\ strip_text ex_text = spell ex_parts /\ wf_date ex_parts /\
  length (d_year ex_parts) = 2%nat /\
  ParseDateTime (mkEnv (mkWenv 2020 None) SkipBad) ex_text =
    Ret (go_date 1997 11 21 9 55 0 (Fixed (bs "pSt") (-28800))) None.
Proof.
  split; [discriminate|]. split; [vm_compute; reflexivity|]. split.
  - refine (conj (or_intror _) (conj (or_intror _) (conj (or_introl _) (conj (or_introl _)
      (conj _ (conj (or_introl _) (conj _ _))))))).
    + vm_compute. tauto.
    + split; [reflexivity | repeat constructor; vm_compute; discriminate].
    + split; [reflexivity | repeat constructor; vm_compute; discriminate].
    + split; [reflexivity | repeat constructor; vm_compute; discriminate].
    + split; [reflexivity | repeat constructor; vm_compute; discriminate].
    + reflexivity.
    + vm_compute. tauto.
    + eexists. apply Z_name with (hours := (-8)%Z). vm_compute. tauto.
  - split; [reflexivity | vm_compute; reflexivity].
Qed.

(** C36: 29 February 2000 23:59:59 -0730 is within the hypotheses. *)
Example C36_example : exists t,
  ParseDateTime (mkEnv (mkWenv 2020 None) SkipBad) (bs "Tue, 29 Feb 2000 23:59:59 -0730") = Ret t None /\
  t_date t = (2000, 2, 29)%Z /\ t_clock t = (23, 59, 59)%Z /\ t_zone_offset t = (-27000)%Z.
Proof.
  apply (C36_round_trip (mkEnv (mkWenv 2020 None) SkipBad) (bs "Tue") 2000 2 29 23 59 59 true 7 30);
    try lia; [vm_compute; tauto | split; vm_compute; split; discriminate].
Qed.

(** C38 and C42 (zone) *)
Example C38_example :
  strip_text (bs "1 Jan 2000 00:00 -0130") =
    spell (mkDate [] (bs "1") (bs "Jan") (bs "2000") (bs "00") (bs "00") [] (bs "-" ++ bs "0130")) /\
  (exists t, ParseDateTime (mkEnv (mkWenv 2020 None) SkipBad) (bs "1 Jan 2000 00:00 -0130") = Ret t None /\
     t_loc t = Fixed (bs "-0130") (-5400)) /\
  (exists t, ParseDateTime (mkEnv (mkWenv 2020 None) SkipBad) (bs "1 Jan 2000 00:00") = Ret t None /\ t_loc t = UTC).
Proof.
  split; [reflexivity|]. split; eexists; (split; [vm_compute; reflexivity|]); vm_compute; reflexivity.
Qed.

Print Assumptions C34_read_from_stripped_text.
Print Assumptions C35_instant.
Print Assumptions C36_round_trip.
Print Assumptions C37_two_digit_years.
Print Assumptions C38_numeric_zones.
Print Assumptions C39_zone_names.
Print Assumptions C42_defaults.
Print Assumptions C43_out_of_range_carried.
