(** C32, C33: how bytes become characters and characters become tokens. *)
From Coq Require Import String List NArith ZArith Bool Arith Lia.
From Verif Require Import Lexer Grammar Utf8 Strs Mime GoTime Parser Walker Api Spec ParserFacts
  WalkerFacts Static Total Cfws DateSpec LexFacts Utf8Facts PropApi.
Import ListNotations.
Local Open Scope N_scope.

(** * C32 *)

(** [repaired s s']: reading [s] from left to right, each byte that does not start the UTF-8
    encoding of a Unicode code point is replaced by the encoding of U+FFFD (EF BF BD); the
    encodings of code points are kept. *)
Inductive repaired : gostring -> gostring -> Prop :=
| R_nil : repaired [] []
| R_char : forall r s s', valid_rune r -> repaired s s' -> repaired (encode1 r ++ s) (encode1 r ++ s')
| R_bad : forall b s s', (forall r t, valid_rune r -> b :: s <> encode1 r ++ t) -> repaired s s' ->
    repaired (b :: s) ([239; 191; 189] ++ s').

Lemma decode1_cases b s r s1 : decode1 b s = (r, s1) ->
  (b :: s = encode1 r ++ s1 /\ valid_rune r) \/ (r = rune_error /\ s1 = s).
Proof.
  unfold decode1.
  destruct (N.ltb_spec b 128).
  { intros E. injection E as <- <-. left. unfold encode1, valid_rune. destruct (N.ltb_spec b 128); [|lia]. split; [reflexivity|lia]. }
  destruct (in_range 194 223 b) eqn:E2.
  { apply in_range_spec in E2. destruct s as [|b1 s]; [intros E; injection E as <- <-; auto|].
    destruct (cont b1) eqn:C1; intros E; [|injection E as <- <-; auto]. apply in_range_spec in C1.
    assert (Er : r = (b - 192) * 64 + (b1 - 128)) by congruence. assert (Es : s1 = s) by congruence. subst s1. clear E. left.
    unfold encode1, valid_rune. destruct (N.ltb_spec r 128); [lia|]. destruct (N.ltb_spec r 2048); [|lia]. split; [|lia].
    cbn [app]. do 2 f_equal; lia. }
  destruct (in_range 224 239 b) eqn:E3.
  { apply in_range_spec in E3. clear E2. destruct s as [|b1 [|b2 s]]; try (intros E; injection E as <- <-; auto; fail).
    destruct (_ && _)%bool eqn:C1; intros E; [|injection E as <- <-; auto]. apply andb_true_iff in C1 as [C1 C2].
    apply in_range_spec in C1, C2.
    assert (Er : r = (b - 224) * 4096 + (b1 - 128) * 64 + (b2 - 128)) by congruence. assert (Es : s1 = s) by congruence. subst s1. clear E. left.
    assert (B : 2048 <= r < 55296 \/ 57344 <= r < 65536).
    { destruct (N.eqb_spec b 224); destruct (N.eqb_spec b 237); lia. }
    unfold encode1, valid_rune. destruct (N.ltb_spec r 128); [lia|]. destruct (N.ltb_spec r 2048); [lia|].
    replace (in_range 55296 57343 r || (1114111 <? r))%bool with false.
    2:{ symmetry. apply orb_false_iff. split; [|apply N.ltb_ge; lia]. unfold in_range. apply andb_false_iff. rewrite !N.leb_gt. lia. }
    destruct (N.ltb_spec r 65536); [|lia]. split; [|lia]. 
    assert (128 <= b1 <= 191) by (destruct (N.eqb_spec b 224); destruct (N.eqb_spec b 237); lia). clear C1 B.
    cbn [app]. f_equal; [lia|]. f_equal; [lia|]. f_equal. lia. }
  destruct (in_range 240 244 b) eqn:E4; [|intros E; injection E as <- <-; auto].
  { apply in_range_spec in E4. clear E2 E3. destruct s as [|b1 [|b2 [|b3 s]]]; try (intros E; injection E as <- <-; auto; fail).
    destruct (_ && _)%bool eqn:C1; intros E; [|injection E as <- <-; auto]. apply andb_true_iff in C1 as [C1 C3].
    apply andb_true_iff in C1 as [C1 C2]. apply in_range_spec in C1, C2, C3.
    assert (Er : r = (b - 240) * 262144 + (b1 - 128) * 4096 + (b2 - 128) * 64 + (b3 - 128)) by congruence. assert (Es : s1 = s) by congruence. subst s1. clear E. left.
    assert (B : 65536 <= r <= 1114111).
    { destruct (N.eqb_spec b 240); destruct (N.eqb_spec b 244); lia. }
    unfold encode1, valid_rune. destruct (N.ltb_spec r 128); [lia|]. destruct (N.ltb_spec r 2048); [lia|].
    replace (in_range 55296 57343 r || (1114111 <? r))%bool with false.
    2:{ symmetry. apply orb_false_iff. split; [|apply N.ltb_ge; lia]. unfold in_range. apply andb_false_iff. rewrite !N.leb_gt. lia. }
    destruct (N.ltb_spec r 65536); [lia|]. split; [|lia]. 
    assert (128 <= b1 <= 191) by (destruct (N.eqb_spec b 240); destruct (N.eqb_spec b 244); lia). clear C1 B.
    cbn [app]. f_equal; [lia|]. f_equal; [lia|]. f_equal; [lia|]. f_equal. lia. }
Qed.

Lemma decode_repaired s s' : repaired s s' -> decode s = decode s'.
Proof.
  assert (V : valid_rune rune_error) by (unfold valid_rune, rune_error; lia).
  induction 1 as [|r s s' V1 H IH|b s s' Hb H IH].
  - reflexivity.
  - pose proof (decode_encode [r] s) as A. pose proof (decode_encode [r] s') as A'. unfold encode in A, A'.
    cbn [flat_map] in A, A'. rewrite app_nil_r in A, A'. rewrite A, A' by auto. now rewrite IH.
  - change ([239; 191; 189] ++ s') with (encode [rune_error] ++ s'). rewrite decode_encode by auto.
    cbn [app]. rewrite decode_cons. destruct (decode1 b s) as [r s1] eqn:E.
    destruct (decode1_cases _ _ _ _ E) as [[E1 V1]|[-> ->]]; [destruct (Hb r s1 V1 E1)|]. now rewrite IH.
Qed.

Lemma repaired_exists s : exists s', repaired s s'.
Proof.
  assert (H : forall n s, (length s <= n)%nat -> exists s', repaired s s').
  { clear s. induction n as [|n IH]; intros s Hn.
    - destruct s; [exists []; constructor | cbn in Hn; lia].
    - destruct s as [|b s]; [exists []; constructor|].
      assert (D : (exists r t, valid_rune r /\ b :: s = encode1 r ++ t) \/ forall r t, valid_rune r -> b :: s <> encode1 r ++ t).
      { destruct (decode1 b s) as [r s1] eqn:E. destruct (decode1_cases _ _ _ _ E) as [[E1 V1]|[-> ->]].
        - left. eauto.
        - destruct (list_eq_dec N.eq_dec (b :: s) ([239; 191; 189] ++ skipn 2 s)) as [Y|N].
          + left. exists rune_error, (skipn 2 s). split; [unfold valid_rune, rune_error; lia | exact Y].
          + right. intros r t V1 E1. pose proof (decode1_encode r t b s V1 (eq_sym E1)) as E2. rewrite E in E2.
            assert (r = rune_error) by congruence. subst r. apply N. rewrite E1.
            change (encode1 rune_error) with [239; 191; 189]. cbn [app]. f_equal.
            change (encode1 rune_error ++ t) with (239 :: 191 :: 189 :: t) in E1. injection E1 as -> ->. reflexivity. }
      destruct D as [[r [t [V E]]]|D].
      + destruct (IH t) as [t' Ht].
        { destruct (encode1_cons r) as [x [y Ey]]. rewrite Ey in E. cbn [app] in E. injection E as -> ->. len. }
        exists (encode1 r ++ t'). rewrite E. now constructor.
      + destruct (IH s) as [t' Ht]; [len|]. eexists. apply R_bad; eassumption. }
  apply (H (length s)). lia.
Qed.

Lemma repaired_empty s s' : repaired s s' -> (s = [] <-> s' = []).
Proof.
  destruct 1 as [|r s s' V1 H|b s s' Hb H]; [tauto | |].
  - destruct (encode1_cons r) as [x [y Ey]]. rewrite Ey. cbn. split; discriminate.
  - cbn. split; discriminate.
Qed.

(** The repaired string is valid UTF-8: it is the encoding of a sequence of code points. *)
Lemma repaired_valid s s' : repaired s s' -> exists rs, Forall valid_rune rs /\ s' = encode rs.
Proof.
  assert (V : valid_rune rune_error) by (unfold valid_rune, rune_error; lia).
  induction 1 as [|r s s' V1 H [rs [F ->]]|b s s' Hb H [rs [F ->]]].
  - exists []. auto.
  - exists (r :: rs). auto.
  - exists (rune_error :: rs). auto.
Qed.

Theorem C32_invalid_utf8 : forall e s,
  (exists s', repaired s s') /\
  (forall s', repaired s s' ->
     (exists rs, Forall valid_rune rs /\ s' = encode rs) /\
     ParseAddressList e s = ParseAddressList e s' /\ ParseDateTime e s = ParseDateTime e s').
Proof.
  intros e s. split; [apply repaired_exists|]. intros s' H. split; [eapply repaired_valid; eauto|].
  pose proof (decode_repaired _ _ H) as D. pose proof (repaired_empty _ _ H) as Z.
  assert (T : tokens e s = tokens e s') by (unfold tokens; now rewrite D).
  unfold ParseAddressList, ParseDateTime. rewrite T.
  destruct s, s'; try tauto; [destruct Z as [Z _] | destruct Z as [_ Z]]; specialize (Z eq_refl); discriminate.
Qed.

Example C32_example : repaired [255; 64; 98] [239; 191; 189; 64; 98].
Proof.
  change [239; 191; 189; 64; 98] with ([239; 191; 189] ++ (encode1 64 ++ encode1 98 ++ [])).
  apply R_bad.
  - intros r t V E. pose proof (decode1_encode r t 255 [64; 98] V (eq_sym E)) as D.
    unfold decode1 in D. vm_compute in D. injection D as <- <-. vm_compute in E. discriminate.
  - change [64; 98] with (encode1 64 ++ encode1 98 ++ []).
    repeat (apply R_char; [unfold valid_rune; lia|]). constructor.
Qed.

(** * C33 *)

(** Parsing after the characters above U+FFFF were removed. *)
Theorem C33_high_characters : forall e ra r rb,
  Forall valid_rune (ra ++ r :: rb) -> 65535 < r ->
  match bad_rune e with
  | SkipBad =>
      (encode (ra ++ rb) <> [] ->
        ParseAddressList e (encode (ra ++ r :: rb)) = ParseAddressList e (encode (ra ++ rb)) /\
        ParseDateTime e (encode (ra ++ r :: rb)) = ParseDateTime e (encode (ra ++ rb))) /\
      (encode (ra ++ rb) = [] ->
        ParseAddressList e (encode (ra ++ r :: rb)) = Ret None (Some ESyntax) /\
        ParseDateTime e (encode (ra ++ r :: rb)) = Ret zero_time (Some ESyntax))
  | EmitBad =>
      ParseAddressList e (encode (ra ++ r :: rb)) = Ret None (Some ESyntax) /\
      ParseDateTime e (encode (ra ++ r :: rb)) = Ret zero_time (Some ESyntax)
  end.
Proof.
  intros e ra r rb V Hr.
  assert (L : lex_rune r = None). { apply lex_not_bmp. unfold bmp. apply N.leb_gt. exact Hr. }
  assert (NE : encode (ra ++ r :: rb) <> []).
  { rewrite encode_app. unfold encode. cbn [flat_map]. destruct (encode1_cons r) as [b [t ->]]. cbn. intros E.
    apply app_eq_nil in E as [_ E]. discriminate. }
  assert (V' : Forall valid_rune (ra ++ rb)).
  { apply Forall_app in V as [V1 V2]. apply Forall_app. inversion V2; auto. }
  assert (T : tokens e (encode (ra ++ r :: rb)) = lex (bad_rune e) (ra ++ r :: rb)).
  { unfold tokens. now rewrite decode_encode_all. }
  assert (T' : tokens e (encode (ra ++ rb)) = lex (bad_rune e) (ra ++ rb)).
  { unfold tokens. now rewrite decode_encode_all. }
  destruct (bad_rune e) eqn:B.
  - assert (TT : tokens e (encode (ra ++ r :: rb)) = tokens e (encode (ra ++ rb))).
    { rewrite T, T'. unfold lex. f_equal. rewrite !flat_map_app. cbn [flat_map]. unfold lex1 at 2. rewrite L. reflexivity. }
    split; intros H0.
    + unfold ParseAddressList, ParseDateTime. rewrite TT.
      destruct (encode (ra ++ r :: rb)); [destruct (NE eq_refl)|]. destruct (encode (ra ++ rb)); [destruct (H0 eq_refl)|]. auto.
    + assert (E : ra ++ rb = []).
      { destruct (ra ++ rb) as [|x l]; [reflexivity|]. unfold encode in H0. cbn [flat_map] in H0.
        destruct (encode1_cons x) as [b [t Ex]]. rewrite Ex in H0. discriminate. }
      assert (TE : tokens e (encode (ra ++ r :: rb)) = [eof_tok]) by (rewrite TT, T', E; reflexivity).
      split.
      * apply parse_address_list_err; [exact NE|]. rewrite TE. apply parse_none. vm_compute. reflexivity.
      * apply parse_date_time_err; [exact NE|]. rewrite TE. apply parse_none. vm_compute. reflexivity.
  - assert (I : In (mkTok T_Invalid r) (tokens e (encode (ra ++ r :: rb)))).
    { rewrite T. unfold lex. apply in_app_iff. left. apply in_flat_map. exists r. split; [apply in_app_iff; right; now left|].
      unfold lex1. rewrite L. now left. }
    split; [apply parse_address_list_err | apply parse_date_time_err]; try exact NE; intros HL;
      apply lang_no_invalid in HL; rewrite Forall_forall in HL; apply (HL _ I); reflexivity.
Qed.
