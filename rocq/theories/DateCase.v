(** C40: letter case in date-times. *)
From Coq Require Import String List NArith ZArith Bool Arith Lia.
From Verif Require Import Lexer Grammar Utf8 Utf8Facts Strs Mime GoTime Parser Walker Api Spec ParserFacts
  WalkerFacts Static Total Cfws DateSpec LexFacts LangFacts Dates Calendar DateText DateAccept First PropDate.
Import ListNotations.
Local Open Scope N_scope.

(** ** Lower case commutes with decoding, lexing and stripping *)
Lemma lower_range lo hi c : ((122 < lo) -> in_range lo hi (lower_byte c) = in_range lo hi c)%N.
Proof.
  intros H. unfold lower_byte, in_range. destruct (N.leb_spec 65 c); destruct (N.leb_spec c 90); cbn [andb]; try reflexivity.
  destruct (N.leb_spec lo (c + 32)); destruct (N.leb_spec lo c); try lia; reflexivity.
Qed.

Lemma lower_high c : (122 < c)%N -> lower_byte c = c.
Proof.
  intros H. unfold lower_byte, in_range. destruct (N.leb_spec 65 c); destruct (N.leb_spec c 90); cbn [andb]; lia.
Qed.

Lemma lower_lt128 c : (lower_byte c <? 128)%N = (c <? 128)%N.
Proof.
  unfold lower_byte, in_range. destruct (N.leb_spec 65 c); destruct (N.leb_spec c 90); cbn [andb]; try reflexivity.
  destruct (N.ltb_spec (c + 32) 128); destruct (N.ltb_spec c 128); lia.
Qed.

Lemma decode1_lower b s : decode1 (lower_byte b) (to_lower s) =
  let '(r, s1) := decode1 b s in (lower_byte r, to_lower s1).
Proof.
  unfold decode1. rewrite lower_lt128. destruct (N.ltb_spec b 128); [reflexivity|].
  rewrite (lower_high b) by lia.
  destruct (in_range 194 223 b) eqn:E1.
  { apply in_range_spec in E1. destruct s as [|b1 s]; [reflexivity|]. cbn [to_lower map]. unfold cont. rewrite lower_range by lia.
    destruct (in_range 128 191 b1) eqn:E2; [|reflexivity]. apply in_range_spec in E2.
    rewrite (lower_high b1) by lia. rewrite lower_high by lia. reflexivity. }
  destruct (in_range 224 239 b) eqn:E2.
  { apply in_range_spec in E2. destruct s as [|b1 [|b2 s]]; [reflexivity|reflexivity|]. cbn [to_lower map]. unfold cont.
    rewrite !lower_range by (try destruct (b =? 224)%N; lia).
    destruct (in_range _ _ b1) eqn:E3; cbn [andb]; [|reflexivity].
    destruct (in_range 128 191 b2) eqn:E4; [|reflexivity]. apply in_range_spec in E3, E4.
    assert (128 <= b1)%N by (destruct (b =? 224)%N; lia).
    rewrite (lower_high b1), (lower_high b2) by lia.
    rewrite lower_high; [reflexivity|].
    destruct (N.eqb_spec b 224); lia. }
  destruct (in_range 240 244 b) eqn:E3.
  { apply in_range_spec in E3. destruct s as [|b1 [|b2 [|b3 s]]]; [reflexivity|reflexivity|reflexivity|]. cbn [to_lower map]. unfold cont.
    rewrite !lower_range by (try destruct (b =? 240)%N; lia).
    destruct (in_range _ _ b1) eqn:E4; cbn [andb]; [|reflexivity].
    destruct (in_range 128 191 b2) eqn:E5; cbn [andb]; [|reflexivity].
    destruct (in_range 128 191 b3) eqn:E6; [|reflexivity]. apply in_range_spec in E4, E5, E6.
    assert (128 <= b1)%N by (destruct (b =? 240)%N; lia).
    rewrite (lower_high b1), (lower_high b2), (lower_high b3) by lia.
    rewrite lower_high; [reflexivity|].
    destruct (N.eqb_spec b 240); lia. }
  reflexivity.
Qed.

Lemma decode_lower s : decode (to_lower s) = to_lower (decode s).
Proof.
  assert (H : forall n s, (length s <= n)%nat -> decode (to_lower s) = to_lower (decode s)).
  { clear s. induction n as [|n IH]; intros s Hn.
    - destruct s; [reflexivity | cbn in Hn; lia].
    - destruct s as [|b s]; [reflexivity|]. cbn [to_lower map]. change (map lower_byte s) with (to_lower s).
      rewrite !decode_cons, decode1_lower. destruct (decode1 b s) as [r s1] eqn:E.
      cbn [to_lower map]. f_equal. apply IH. apply decode1_suffix in E as [p [-> _]].
      cbn [length] in Hn. rewrite app_length in Hn. lia. }
  now apply (H (length s)).
Qed.

Lemma lex_rune_lower r : lex_rune (lower_byte r) = lex_rune r.
Proof.
  unfold lower_byte. destruct (in_range 65 90 r) eqn:E; [|reflexivity]. apply in_range_spec in E.
  assert (H : exists k, (k < 26)%nat /\ r = N.of_nat (65 + k)).
  { exists (N.to_nat r - 65)%nat. lia. }
  destruct H as [k [Hk ->]].
  do 26 (destruct k as [|k]; [reflexivity|]). lia.
Qed.

Lemma lex_types_lower m rs : map tt (lex m (to_lower rs)) = map tt (lex m rs).
Proof.
  unfold lex. rewrite !map_app. f_equal. induction rs as [|r rs IH]; [reflexivity|].
  cbn [to_lower map flat_map]. change (map lower_byte rs) with (to_lower rs).
  rewrite !map_app, IH. f_equal. unfold lex1. rewrite lex_rune_lower. destruct (lex_rune r); [reflexivity|]. now destruct m.
Qed.

Lemma rkind_lower r : rkind (lower_byte r) = rkind r.
Proof.
  unfold lower_byte. destruct (in_range 65 90 r) eqn:E; [|reflexivity]. apply in_range_spec in E.
  unfold rkind.
  repeat match goal with
   | |- context [(?x =? ?k)%N] => replace (x =? k)%N with false by (symmetry; apply N.eqb_neq; lia)
  end. reflexivity.
Qed.

Lemma strip_lower rs n : strip n (to_lower rs) = to_lower (strip n rs).
Proof.
  assert (H : forall k rs, (length rs <= k)%nat -> forall n, strip n (to_lower rs) = to_lower (strip n rs)).
  { clear rs n. induction k as [|k IH]; intros rs Hk n.
    - destruct rs; [reflexivity | cbn in Hk; lia].
    - destruct rs as [|r rs]; [reflexivity|]. cbn [length] in Hk. cbn [to_lower map]. change (map lower_byte rs) with (to_lower rs).
      rewrite !strip_step, rkind_lower.
      destruct n; destruct (rkind r); cbn [to_lower map]; try (apply IH; lia);
        try (f_equal; apply IH; lia).
      destruct rs as [|r' rs]; [reflexivity|]. cbn [to_lower map length] in *. apply IH. lia. }
  now apply (H (length rs)).
Qed.

Lemma bmp_lower rs : filter bmp (to_lower rs) = to_lower (filter bmp rs).
Proof.
  induction rs as [|r rs IH]; [reflexivity|]. cbn [to_lower map filter]. change (map lower_byte rs) with (to_lower rs).
  assert (E : bmp (lower_byte r) = bmp r).
  { unfold bmp, lower_byte, in_range. destruct (N.leb_spec 65 r); destruct (N.leb_spec r 90); cbn [andb]; try reflexivity.
    destruct (N.leb_spec (r + 32) 65535); destruct (N.leb_spec r 65535); lia. }
  rewrite E. destruct (bmp r); [|exact IH]. cbn [to_lower map]. f_equal. exact IH.
Qed.

Lemma strip_text_lower s : strip_text (to_lower s) = to_lower (strip_text s).
Proof. unfold strip_text. now rewrite decode_lower, bmp_lower, strip_lower. Qed.

(** ** Lower-case parts *)
Lemma lower_idem s : to_lower (to_lower s) = to_lower s.
Proof.
  unfold to_lower. rewrite map_map. apply map_ext. intros c. unfold lower_byte at 2.
  destruct (in_range 65 90 c) eqn:E; [|reflexivity]. unfold lower_byte at 1.
  apply in_range_spec in E. unfold lower_byte, in_range.
  destruct (N.leb_spec 65 (c + 32)); destruct (N.leb_spec (c + 32) 90); destruct (N.leb_spec 65 c); destruct (N.leb_spec c 90); cbn [andb]; lia.
Qed.

Lemma lower_digits l : Forall is_dig l -> to_lower l = l.
Proof.
  induction 1 as [|c l Hc H IH]; [reflexivity|]. cbn [to_lower map]. f_equal; [|exact IH].
  unfold is_dig in Hc. unfold lower_byte, in_range. destruct (N.leb_spec 65 c); cbn [andb]; lia.
Qed.

Definition lower_date (d : date_text) : date_text :=
  mkDate (to_lower (d_dow d)) (to_lower (d_day d)) (to_lower (d_mon d)) (to_lower (d_year d)) (to_lower (d_hour d))
    (to_lower (d_min d)) (to_lower (d_sec d)) (to_lower (d_zone d)).

Lemma lower_app a b : to_lower (a ++ b) = to_lower a ++ to_lower b.
Proof. apply map_app. Qed.

Lemma spell_lower d : spell (lower_date d) = to_lower (spell d).
Proof.
  unfold spell, lower_date. cbn [d_dow d_day d_mon d_year d_hour d_min d_sec d_zone].
  rewrite !lower_app. repeat apply (f_equal2 (@app N)); try reflexivity.
  - destruct (d_dow d) as [|c l]; [reflexivity|]. rewrite lower_app. reflexivity.
  - destruct (d_sec d) as [|c l]; [reflexivity|]. rewrite lower_app. reflexivity.
Qed.

Lemma zone_lower z l : zone_text z l -> exists l', zone_text (to_lower z) l' /\ loc_offset l' = loc_offset l.
Proof.
  intros [|h1 h2 m1 m2 F|h1 h2 m1 m2 F|h1 h2 m1 m2 F|n hours HI].
  - exists UTC. split; [apply Z_none | reflexivity].
  - rewrite lower_app, (lower_digits _ F). eexists. split; [apply Z_plus; exact F | reflexivity].
  - rewrite lower_app, (lower_digits _ F). eexists. split; [apply Z_minus; exact F | reflexivity].
  - rewrite (lower_digits _ F). eexists. split; [apply Z_nosign; exact F | reflexivity].
  - eexists. split; [apply Z_name; rewrite lower_idem; exact HI | reflexivity].
Qed.

Lemma ndigits_lower n l : ndigits n l -> to_lower l = l.
Proof. intros [_ H]. now apply lower_digits. Qed.

Lemma lower_denotes now d t : denotes now d t ->
  exists t', denotes now (lower_date d) t' /\ t_unix t' = t_unix t /\ loc_offset (t_loc t') = loc_offset (t_loc t).
Proof.
  intros HD. destruct (denotes_unix _ _ _ HD) as [k0 [K0 [Z0 U0]]].
  pose proof HD as (H1 & H2 & H3 & H4 & H5 & H6 & k & l & H7 & H8 & ET).
  destruct (zone_lower _ _ H8) as [l' [Z' O']].
  assert (D2 : to_lower (d_day d) = d_day d) by (destruct H2 as [H|H]; eapply ndigits_lower; eassumption).
  assert (D3 : to_lower (d_year d) = d_year d) by (destruct H3 as [H|H]; eapply ndigits_lower; eassumption).
  assert (D4 : to_lower (d_hour d) = d_hour d) by (destruct H4 as [H|H]; eapply ndigits_lower; eassumption).
  assert (D5 : to_lower (d_min d) = d_min d) by (eapply ndigits_lower; eassumption).
  assert (D6 : to_lower (d_sec d) = d_sec d) by (destruct H6 as [->|H]; [reflexivity | eapply ndigits_lower; eassumption]).
  set (t' := go_date (year_num now (d_year d)) (Z.of_nat k + 1)%Z (num (d_day d))
          (num (d_hour d)) (num (d_min d)) (num (d_sec d)) l').
  assert (HD' : denotes now (lower_date d) t').
  { unfold denotes, lower_date. cbn [d_dow d_day d_mon d_year d_hour d_min d_sec d_zone].
    rewrite D2, D3, D4, D5, D6, !lower_idem.
    refine (conj _ (conj H2 (conj H3 (conj H4 (conj H5 (conj H6 _)))))).
    - destruct H1 as [->|H]; [left; reflexivity | right; exact H].
    - exists k, l'. auto. }
  exists t'. split; [exact HD'|].
  destruct (denotes_unix _ _ _ HD') as [k1 [K1 [Z1 U1]]].
  unfold lower_date in K1, Z1, U1. cbn [d_dow d_day d_mon d_year d_hour d_min d_sec d_zone] in K1, Z1, U1.
  rewrite lower_idem in K1. rewrite D2, D3, D4, D5, D6 in U1.
  assert (k1 = k0) as ->.
  { assert (ND : NoDup month_names). { repeat constructor; vm_compute; intuition discriminate. }
    eapply (proj1 (NoDup_nth_error month_names) ND); [|congruence]. apply nth_error_Some. congruence. }
  assert (EO : loc_offset (t_loc t') = loc_offset (t_loc t)).
  { pose proof (zone_text_fun _ _ _ Z1 Z') as ->.
    pose proof (zone_text_fun _ _ _ Z0 H8) as ->. exact O'. }
  split; [|exact EO]. rewrite U1, U0, EO. reflexivity.
Qed.

(** C40 *)
Theorem C40_case_irrelevant : forall e s1 s2, to_lower s1 = to_lower s2 ->
  (* either both are rejected with the same outcome *)
  (ParseDateTime e s1 = Ret zero_time (Some ESyntax) /\ ParseDateTime e s2 = Ret zero_time (Some ESyntax)) \/
  (* or both are accepted, as the same instant and offset *)
  (exists t1 t2, ParseDateTime e s1 = Ret t1 None /\ ParseDateTime e s2 = Ret t2 None /\
     t_unix t1 = t_unix t2 /\ t_zone_offset t1 = t_zone_offset t2).
Proof.
  intros e s1 s2 E.
  assert (TY : map tt (tokens e s1) = map tt (tokens e s2)).
  { unfold tokens. rewrite <- (lex_types_lower _ (decode s1)), <- (lex_types_lower _ (decode s2)).
    now rewrite <- !decode_lower, E. }
  destruct (parse_date_time_cases e s1) as [[E1 R1]|[[N1 [L1 R1]]|[N1 [ch1 [L1 [D1 [Y1 [_ R1]]]]]]]].
  - subst s1. destruct s2; [|discriminate]. right. exists zero_time, zero_time. auto.
  - left. split; [exact R1|].
    destruct (parse_date_time_cases e s2) as [[E2 R2]|[[N2 [L2 R2]]|[N2 [ch2 [L2 [D2 [Y2 [_ R2]]]]]]]].
    + subst s2. destruct s1; [congruence | discriminate].
    + exact R2.
    + exfalso. apply L1. eapply lang_types; [exact TY|]. apply lang_nt. exists ch2. auto.
  - right.
    destruct (parse_date_time_cases e s2) as [[E2 R2]|[[N2 [L2 R2]]|[N2 [ch2 [L2 [D2 [Y2 [_ R2]]]]]]]].
    + subst s2. destruct s1; [congruence | discriminate].
    + exfalso. apply L2. eapply lang_types; [symmetry; exact TY|]. apply lang_nt. exists ch1. auto.
    + exists (time_value (wenv_of e) ch1), (time_value (wenv_of e) ch2).
      split; [exact R1|]. split; [exact R2|].
      destruct (tree_time e s1 ch1 D1 Y1) as [d1 [S1 P1]]. destruct (tree_time e s2 ch2 D2 Y2) as [d2 [S2 P2]].
      destruct (lower_denotes _ _ _ P1) as [t1 [Q1 [U1 O1]]]. destruct (lower_denotes _ _ _ P2) as [t2 [Q2 [U2 O2]]].
      assert (ES : spell (lower_date d1) = spell (lower_date d2)).
      { rewrite !spell_lower, <- S1, <- S2, <- !strip_text_lower. now rewrite E. }
      destruct (reading_unique _ _ _ _ _ Q1 Q2 ES) as [_ <-]. unfold t_zone_offset. split; congruence.
Qed.

Example C40_example : to_lower (bs "fRI, 21 NOV 1997 9:55 est") = to_lower (bs "Fri, 21 Nov 1997 9:55 EST") /\
  (exists t, ParseDateTime (mkEnv (mkWenv 2020 None) SkipBad) (bs "fRI, 21 NOV 1997 9:55 est") = Ret t None).
Proof. split; [reflexivity|]. eexists. vm_compute. reflexivity. Qed.

Print Assumptions C40_case_irrelevant.
