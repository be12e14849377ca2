(** Encoded words: the strings [enc_words] recognises, and where an encoded word of the grammar can
    stand in a text whose runs of atom characters are unproblematic. *)
From Coq Require Import String List NArith ZArith Bool Arith Lia.
From Verif Require Import Lexer Grammar Utf8 Strs Mime GoTime Parser Walker Api Spec ParserFacts
  WalkerFacts Static Cfws LangFacts LexFacts Utf8Facts DateSpec First AddrSpec AddrSem CharFacts ScanSpec ScanFacts.
Import ListNotations.

Definition enc1 (x : list rune) : Prop := exists c e t, x = enc_word c e t /\
  full token_char c = true /\ full token_char e = true /\ full enc_text_char t = true.

Definition encl (x : list rune) : Prop := exists l, x = concat l /\ Forall enc1 l.

(** ** Splitting *)
Definition unq (x : list rune) : Prop := Forall (fun r => r <> 63%N) x.

Lemma until_app x y : unq x -> until 63%N (x ++ 63%N :: y) = Some (x, y).
Proof.
  induction 1 as [|r x Hr H IH]; cbn [app until]; [reflexivity|]. destruct (N.eqb_spec r 63); [contradiction|]. now rewrite IH.
Qed.

Lemma until_sound c s : forall a b, until c s = Some (a, b) -> s = a ++ c :: b.
Proof.
  induction s as [|r s IH]; intros a b; cbn [until]; [discriminate|]. destruct (N.eqb_spec r c) as [->|N]; [intros [= <- <-]; reflexivity|].
  destruct (until c s) as [[a' b']|]; [|discriminate]. intros [= <- <-]. cbn [app]. now rewrite (IH a' b' eq_refl).
Qed.

Lemma full_spec p s : full p s = true <-> s <> [] /\ Forall (fun r => p r = true) s.
Proof.
  unfold full. destruct s as [|r s]; [split; [discriminate | intros [H _]; congruence]|].
  rewrite forallb_forall, Forall_forall. split; [intros H; split; [discriminate | exact H] | tauto].
Qed.

Lemma char_all (p q : rune -> bool) : forallb (fun r => implb (p r) (q r)) ascii_list = true ->
  (forall r, (128 <= r)%N -> p r = false) -> forall r, p r = true -> q r = true.
Proof.
  intros H1 H2 r Hr. destruct (N.lt_ge_cases r 128) as [L|L].
  - pose proof (ascii_forall _ H1 r L) as X. cbv beta in X. now rewrite Hr in X.
  - rewrite H2 in Hr by assumption. discriminate.
Qed.

Lemma token_hi r : (128 <= r)%N -> token_char r = false.
Proof.
  revert r. unfold token_char, in_range. intros r Hr. rewrite existsb_hi by (lia || reflexivity).
  replace (r <=? 90)%N with false by (symmetry; apply N.leb_gt; lia). replace (r <=? 122)%N with false by (symmetry; apply N.leb_gt; lia).
  replace (r <=? 57)%N with false by (symmetry; apply N.leb_gt; lia). now rewrite !andb_false_r.
Qed.

Lemma enc_text_hi r : (128 <= r)%N -> enc_text_char r = false.
Proof. intros H. unfold enc_text_char. replace (r <? 128)%N with false by (symmetry; apply N.ltb_ge; lia). now rewrite andb_false_r. Qed.

Lemma token_atext r : token_char r = true -> atext_char r = true.
Proof. apply char_all; [vm_compute; reflexivity | apply token_hi]. Qed.
Lemma enc_text_atext r : enc_text_char r = true -> atext_char r = true.
Proof. apply char_all; [vm_compute; reflexivity | apply enc_text_hi]. Qed.
Lemma token_no r : token_char r = true -> (negb (r =? 63) && negb (r =? 61))%N = true.
Proof. apply (char_all token_char (fun r => negb (r =? 63) && negb (r =? 61))%N); [vm_compute; reflexivity | apply token_hi]. Qed.
Lemma enc_text_no r : enc_text_char r = true -> (negb (r =? 63))%N = true.
Proof. apply (char_all enc_text_char (fun r => negb (r =? 63))%N); [vm_compute; reflexivity | apply enc_text_hi]. Qed.

Lemma token_unq c : full token_char c = true -> unq c.
Proof.
  rewrite full_spec. intros [_ H]. eapply Forall_impl; [|exact H]. intros r Hr. apply token_no, andb_true_iff in Hr as [Hr _].
  apply negb_true_iff, N.eqb_neq in Hr. exact Hr.
Qed.
Lemma token_uneq c : full token_char c = true -> Forall (fun r => r <> 61%N) c.
Proof.
  rewrite full_spec. intros [_ H]. eapply Forall_impl; [|exact H]. intros r Hr. apply token_no, andb_true_iff in Hr as [_ Hr].
  apply negb_true_iff, N.eqb_neq in Hr. exact Hr.
Qed.
Lemma text_unq c : full enc_text_char c = true -> unq c.
Proof.
  rewrite full_spec. intros [_ H]. eapply Forall_impl; [|exact H]. intros r Hr. apply enc_text_no in Hr.
  apply negb_true_iff, N.eqb_neq in Hr. exact Hr.
Qed.

Lemma enc1_atext x : enc1 x -> Forall (fun r => atext_char r = true) x.
Proof.
  intros (c & e & t & -> & H1 & H2 & H3). apply full_spec in H1 as [_ H1]. apply full_spec in H2 as [_ H2]. apply full_spec in H3 as [_ H3].
  unfold enc_word. repeat (apply Forall_app; split); try (repeat constructor);
    (eapply Forall_impl; [|eassumption]); auto using token_atext, enc_text_atext.
Qed.

Lemma encl_atext x : encl x -> Forall (fun r => atext_char r = true) x.
Proof. intros (l & -> & H). induction H; cbn [concat]; [constructor|]. apply Forall_app. split; [now apply enc1_atext | assumption]. Qed.

Lemma enc1_nonnil x : enc1 x -> exists y, x = 61%N :: 63%N :: y.
Proof. intros (c & e & t & -> & _). eexists. reflexivity. Qed.

Lemma enc_word_app c e t y : enc_word c e t ++ y = 61%N :: 63%N :: c ++ 63%N :: e ++ 63%N :: t ++ 63%N :: 61%N :: y.
Proof.
  unfold enc_word. change (bs "=?") with [61; 63]%N. change (bs "?") with [63]%N. change (bs "?=") with [63; 61]%N.
  repeat (rewrite <- app_assoc; cbn [app]). reflexivity.
Qed.

Lemma enc_head_i x y : enc1 x -> enc_head (x ++ y) = Some (x, y).
Proof.
  intros (c & e & t & -> & H1 & H2 & H3). rewrite enc_word_app. cbn [enc_head]. rewrite !until_app by auto using token_unq, text_unq. rewrite H1, H2, H3. reflexivity.
Qed.

Lemma enc_head_sound s x y : enc_head s = Some (x, y) -> s = x ++ y /\ enc1 x.
Proof.
  destruct s as [|r1 [|r2 s1]]; try discriminate. cbn [enc_head]. destruct ((r1 =? 61) && (r2 =? 63))%N eqn:E; [|discriminate].
  apply andb_true_iff in E as [E1 E2]. apply N.eqb_eq in E1. apply N.eqb_eq in E2. subst r1 r2.
  destruct (until 63%N s1) as [[c s2]|] eqn:U1; [|discriminate]. destruct (until 63%N s2) as [[e s3]|] eqn:U2; [|discriminate].
  destruct (until 63%N s3) as [[t [|r s4]]|] eqn:U3; try discriminate. apply until_sound in U1, U2, U3.
  destruct ((r =? 61)%N && full token_char c && full token_char e && full enc_text_char t) eqn:E; [|discriminate].
  apply andb_true_iff in E as [E E4]. apply andb_true_iff in E as [E E3]. apply andb_true_iff in E as [E E2]. apply N.eqb_eq in E. subst r s3 s2 s1.
  intros [= <- <-]. rewrite enc_word_app. split; [reflexivity|]. exists c, e, t. auto.
Qed.

Lemma enc_leading_spec ws : Forall enc1 ws -> forall r n, enc_head r = None -> (length (concat ws ++ r) <= n)%nat -> enc_leading n (concat ws ++ r) = (ws, r).
Proof.
  induction 1 as [|x ws Hx H IH]; intros r n Hr Hn.
  - cbn [concat app]. destruct n; [reflexivity|]. cbn [enc_leading]. now rewrite Hr.
  - cbn [concat] in *. rewrite <- app_assoc in *. pose proof (enc1_nonnil x Hx) as [y Ey]. destruct n as [|n]; [rewrite Ey in Hn; cbn in Hn; lia|].
    cbn [enc_leading]. rewrite (enc_head_i _ _ Hx). rewrite IH; [reflexivity | exact Hr|]. rewrite Ey in Hn. cbn [app length] in Hn. rewrite app_length in Hn. lia.
Qed.

Lemma enc_split_spec ws r : Forall enc1 ws -> enc_head r = None -> enc_split (concat ws ++ r) = (ws, r).
Proof. intros H1 H2. unfold enc_split. now apply enc_leading_spec. Qed.

Lemma enc_leading_sound n : forall s ws r, enc_leading n s = (ws, r) -> (length s <= n)%nat -> s = concat ws ++ r /\ Forall enc1 ws /\ enc_head r = None.
Proof.
  induction n as [|n IH]; intros s ws r E L.
  - injection E as <- <-. destruct s; [|cbn in L; lia]. auto.
  - cbn [enc_leading] in E. destruct (enc_head s) as [[w s']|] eqn:H.
    + destruct (enc_leading n s') as [ws' r'] eqn:E'. injection E as <- <-. apply enc_head_sound in H as [-> Hw].
      pose proof (enc1_nonnil w Hw) as [y Ey]. rewrite app_length, Ey in L. cbn [length] in L.
      destruct (IH _ _ _ E') as (-> & F & X); [lia|]. cbn [concat]. rewrite <- app_assoc. auto.
    + injection E as <- <-. auto.
Qed.

Lemma enc_split_sound s ws r : enc_split s = (ws, r) -> s = concat ws ++ r /\ Forall enc1 ws /\ enc_head r = None.
Proof. intros H. eapply enc_leading_sound; [exact H | lia]. Qed.

Lemma enc_words_sound s ws : enc_words s = Some ws -> s = concat ws /\ Forall enc1 ws /\ ws <> [].
Proof.
  unfold enc_words. destruct (enc_split s) as [[|w l] [|c r]] eqn:E; try discriminate. intros [= <-]. apply enc_split_sound in E as (-> & F & _).
  rewrite app_nil_r. split; [reflexivity|]. split; [exact F | discriminate].
Qed.

Lemma enc_words_complete ws : Forall enc1 ws -> ws <> [] -> enc_words (concat ws) = Some ws.
Proof.
  intros H N. unfold enc_words. pose proof (enc_split_spec ws [] H eq_refl) as E. rewrite app_nil_r in E. rewrite E. destruct ws; [congruence | reflexivity].
Qed.

Definition is_enc (s : list rune) : bool := match enc_words s with Some _ => true | None => false end.

(** A run of atom characters is unproblematic if it does not contain "=?" or, where encoded words
    are allowed ([b]), consists of encoded words. *)
Definition okrun (b : bool) (p : list rune) : Prop := intro p = false \/ (b = true /\ is_enc p = true).

Fixpoint okruns (b : bool) (p : list rune) (l : list emit) : Prop :=
  match l with
  | [] => okrun b p
  | EA r :: l' => okruns b (p ++ [r]) l'
  | _ :: l' => okrun b p /\ okruns b [] l'
  end.

Lemma is_enc_encl x : is_enc x = true <-> encl x /\ x <> [].
Proof.
  unfold is_enc. split.
  - destruct (enc_words x) as [l|] eqn:E; [|discriminate]. intros _. apply enc_words_sound in E as (E & F & N). split; [exists l; auto|].
    destruct F as [|y l Hy F]; [congruence|]. apply enc1_nonnil in Hy as [z ->]. rewrite E. discriminate.
  - intros [(l & -> & F) N]. rewrite enc_words_complete; [reflexivity | assumption | destruct l; [destruct N; reflexivity | discriminate]].
Qed.

Lemma encl_words x : encl x -> x <> [] -> exists l, enc_words x = Some l /\ x = concat l /\ Forall enc1 l /\ l <> [].
Proof.
  intros H N. destruct (enc_words x) as [l|] eqn:E.
  - exists l. split; [reflexivity|]. now apply enc_words_sound.
  - assert (X : is_enc x = true) by now apply is_enc_encl. unfold is_enc in X. rewrite E in X. discriminate.
Qed.

(** ** Position of encoded words *)
Definition widec (c : list rune) : Prop := c <> [] /\ unq c /\ Forall (fun r => r <> 61%N) c.

(** The characters of an encoded word of the grammar. *)
Definition wide (x : list rune) : Prop := exists c e t, x = enc_word c e t /\ widec c /\ widec e /\ unq t /\ t <> [].

Lemma enc1_wide x : enc1 x -> wide x.
Proof.
  intros (c & e & t & -> & H1 & H2 & H3). exists c, e, t. split; [reflexivity|]. unfold widec.
  repeat split; auto using token_unq, token_uneq, text_unq; [apply full_spec in H1; tauto | apply full_spec in H2; tauto | apply full_spec in H3; tauto].
Qed.

Lemma unq_split x y a b : unq x -> unq a -> x ++ 63%N :: y = a ++ 63%N :: b -> x = a /\ y = b.
Proof.
  intros H. revert a. induction H as [|r x Hr H IH]; intros a Ha E; destruct Ha as [|s a Hs Ha]; cbn in E.
  - injection E as E. auto.
  - injection E as E1 E2. congruence.
  - injection E as E1 E2. congruence.
  - injection E as -> E. destruct (IH a Ha E) as [-> ->]. auto.
Qed.

Lemma wide_det x y a b : wide x -> wide a -> x ++ y = a ++ b -> x = a /\ y = b.
Proof.
  intros (c & e & t & -> & (_ & Hc & _) & (_ & He & _) & Ht & _) (c' & e' & t' & -> & (_ & Hc' & _) & (_ & He' & _) & Ht' & _) E.
  rewrite !enc_word_app in E. injection E as E. apply unq_split in E as [-> E]; auto. apply unq_split in E as [-> E]; auto.
  apply unq_split in E as [-> E]; auto. injection E as E. auto.
Qed.

Lemma app_skip (s p q r : list rune) : Forall (fun c => c <> 61%N) s -> p ++ 61%N :: q = s ++ r -> exists p', p = s ++ p' /\ p' ++ 61%N :: q = r.
Proof.
  intros H. revert p. induction H as [|c s Hc H IH]; intros p E; [exists p; auto|].
  destruct p as [|d p]; cbn in E; injection E as E1 E2; [congruence|]. subst d. apply IH in E2 as (p' & -> & E). exists p'. auto.
Qed.

Lemma align l : Forall enc1 l -> forall p s y x rest, wide x -> concat l = p ++ s -> s ++ y = x ++ rest ->
  (exists z, s = 61%N :: 63%N :: z) ->
  exists l1 l2, p = concat l1 /\ s = x ++ concat l2 /\ Forall enc1 l1 /\ enc1 x /\ Forall enc1 l2.
Proof.
  induction 1 as [|e1 l He1 H IH]; intros p s y x rest Hx E1 E2 [z Ez].
  { subst s. destruct p; discriminate. }
  destruct p as [|d p].
  - cbn [concat app] in E1. rewrite <- E1, <- app_assoc in E2. apply wide_det in E2 as [<- E2]; [|now apply enc1_wide | assumption].
    exists [], l. cbn [concat]. auto.
  - cbn [concat] in E1. apply app_eq_app in E1 as [Q [[E3 E4]|[E3 E4]]].
    + destruct Q as [|q Q].
      { (* p is exactly e1 *) rewrite app_nil_r in E3. cbn [app] in E4. subst s.
        destruct (IH [] (concat l) y x rest Hx eq_refl E2) as (l1 & l2 & F1 & F2 & F3 & F4 & F5); [eauto|].
        exists (e1 :: l1), l2. cbn [concat]. rewrite <- F1, app_nil_r. auto. }
      exfalso. rewrite Ez in E4. cbn [app] in E4. injection E4 as <- E4. rewrite Ez in E2. cbn [app] in E2.
      destruct Hx as (c & e & t & -> & (Hc0 & Hc & Hc1) & _). rewrite enc_word_app in E2. injection E2 as E2.
      destruct He1 as (c1 & e2 & t1 & -> & G1 & G2 & G3).
      pose proof (enc_word_app c1 e2 t1 []) as EW. rewrite app_nil_r in EW. rewrite EW in E3. cbn [app] in E3. injection E3 as <- E3.
      assert (EE : 63%N :: c1 ++ 63%N :: e2 ++ 63%N :: t1 ++ [63; 61]%N = ([63%N] ++ c1 ++ [63%N] ++ e2 ++ [63%N]) ++ t1 ++ [63; 61]%N)
        by (repeat (rewrite <- app_assoc; cbn [app]); reflexivity).
      pose proof (eq_trans (eq_sym E3) EE) as E3'. clear EE E3. rename E3' into E3.
      apply app_skip in E3 as (p' & -> & E3).
      2:{ repeat (apply Forall_app; split); auto using token_uneq; repeat constructor; discriminate. }
      apply text_unq in G3. apply app_eq_app in E3 as [T [[E5 E6]|[E5 E6]]].
      * (* past the text *) destruct T as [|u1 [|u2 T]]; cbn in E6.
        -- discriminate.
        -- injection E6 as _ E6. subst Q. cbn [app] in E4.
           destruct H as [|e3 l He3 H]; [discriminate|]. apply enc1_nonnil in He3 as [y3 ->]. cbn in E4. discriminate.
        -- injection E6 as _ _ E6. destruct T; discriminate.
      * destruct T as [|u1 T].
        -- cbn in E6. discriminate.
        -- cbn in E6. injection E6 as <- E6. subst Q. destruct T as [|u2 T].
           ++ cbn in E4. injection E4 as -> . cbn in E2. destruct c as [|c0 c]; [congruence|]. cbn in E2. injection E2 as E2 _.
              inversion Hc1; subst. congruence.
           ++ cbn in E4. injection E4 as <- _. rewrite E5 in G3. apply Forall_app in G3 as [_ G3]. inversion G3 as [|? ? _ G4]; subst.
              inversion G4; subst. congruence.
    + destruct (IH Q s y x rest Hx E4 E2) as (l1 & l2 & F1 & F2 & F3 & F4 & F5); [eauto|].
      exists (e1 :: l1), l2. cbn [concat]. rewrite <- F1. auto.
Qed.

(** ** Runs of atom characters *)
Fixpoint takeA (x : list rune) : list rune :=
  match x with r :: x' => if atext_char r then r :: takeA x' else [] | [] => [] end.

Lemma takeA_app x y : Forall (fun r => atext_char r = true) x -> takeA (x ++ y) = x ++ takeA y.
Proof. induction 1 as [|r x Hr H IH]; [reflexivity|]. cbn [app takeA]. now rewrite Hr, IH. Qed.

Lemma takeA_split x : exists y, x = takeA x ++ y /\ takeA y = [].
Proof.
  induction x as [|r x [y [E H]]]; [exists []; auto|]. cbn [takeA]. destruct (atext_char r) eqn:A.
  - exists y. split; [cbn [app]; now rewrite <- E | exact H].
  - exists (r :: x). split; [reflexivity | cbn [takeA]; now rewrite A].
Qed.

Lemma takeA_atext x : Forall (fun r => atext_char r = true) (takeA x).
Proof. induction x as [|r x IH]; [constructor|]. cbn [takeA]. destruct (atext_char r) eqn:A; [now constructor | constructor]. Qed.

Definition noA (l : list emit) : Prop := match l with EA _ :: _ => False | _ => True end.

Definition normal (m : mode) : bool := match m with MN _ => true | _ => false end.

Lemma em_noA x : forall m, normal m = false -> noA (em m x).
Proof.
  induction x as [|r x IH]; intros m Hm; [exact I|]. rewrite em_cons.
  destruct m as [a|a n|a n|a acc pend|a acc pend|a acc]; [discriminate| | | | |]; cbn [step].
  - destruct (r =? 40)%N; [apply IH; reflexivity|]. destruct (r =? 41)%N; [destruct n; [exact I | apply IH; reflexivity]|].
    destruct (r =? 92)%N; apply IH; reflexivity.
  - apply IH. reflexivity.
  - destruct (r =? 34)%N; [exact I|]. destruct (r =? 92)%N; [apply IH; reflexivity|]. destruct (ws r); apply IH; reflexivity.
  - apply IH. reflexivity.
  - destruct (r =? 93)%N; [exact I | apply IH; reflexivity].
Qed.

Lemma em_not_atext a r x : atext_char r = false -> noA (em (MN a) (r :: x)).
Proof.
  intros H. rewrite em_cons. cbn [step]. destruct (ws r); [exact I|]. destruct (r =? 40)%N; [now apply em_noA|].
  destruct (r =? 34)%N; [now apply em_noA|]. destruct (r =? 91)%N; [now apply em_noA|].
  destruct (r =? 60)%N; [exact I|]. destruct (r =? 62)%N; [exact I|]. destruct ((r =? 44) || (r =? 59))%N; [destruct a; exact I|].
  rewrite H. exact I.
Qed.

Lemma noA_takeA a x : takeA x = [] -> noA (em (MN a) x).
Proof.
  destruct x as [|r x]; [intros; exact I|]. cbn [takeA]. destruct (atext_char r) eqn:A; [discriminate|]. intros _. now apply em_not_atext.
Qed.

Lemma okrun_nil b : okrun b [].
Proof. left. reflexivity. Qed.

Lemma okruns_noA b p l : noA l -> okruns b p l <-> okrun b p /\ okruns b [] l.
Proof.
  intros H. destruct l as [|[r| |r| |t|t] l]; cbn [okruns]; try (destruct H; fail); pose proof (okrun_nil b); tauto.
Qed.

Lemma okruns_atoms b p x l : okruns b p (map EA x ++ l) <-> okruns b (p ++ x) l.
Proof.
  revert p. induction x as [|r x IH]; intros p; cbn [map app okruns]; [now rewrite app_nil_r|]. rewrite IH, <- app_assoc. reflexivity.
Qed.

Lemma em_takeA a x : exists y, em (MN a) x = map EA (takeA x) ++ em (MN a) y /\ x = takeA x ++ y /\ takeA y = [].
Proof.
  destruct (takeA_split x) as [y [E H]]. exists y. split; [|auto]. rewrite E at 1. rewrite em_app.
  pose proof (runs_atoms a (takeA x) (takeA_atext x)) as R. rewrite (runs_mo _ _ _ _ R), (runs_em _ _ _ _ R). reflexivity.
Qed.

Lemma okruns_lead b p a x : okruns b p (em (MN a) x) -> okrun b (p ++ takeA x).
Proof.
  destruct (em_takeA a x) as (y & -> & _ & H). intros K. apply okruns_atoms in K. apply okruns_noA in K; [tauto|]. now apply noA_takeA.
Qed.

Lemma okruns_gaps b p k l : okruns b p (repeat EG k ++ l) -> okruns b (if k then p else []) l.
Proof.
  destruct k as [|k]; [auto|]. cbn [repeat app okruns]. intros [_ H]. induction k as [|k IH]; [exact H|]. cbn [repeat app okruns] in H. tauto.
Qed.

Lemma okruns_tail b p l1 l2 : okruns b p (l1 ++ l2) -> noA l2 -> okruns b [] l2.
Proof.
  revert p. induction l1 as [|x l1 IH]; intros p H N; cbn [app] in H.
  - now apply (okruns_noA b p) in H.
  - destruct x; cbn [okruns] in H; try destruct H as [_ H]; eauto.
Qed.

(** ** Encoded words of the grammar *)
Lemma intro_cons r x : intro x = true -> intro (r :: x) = true.
Proof. intros H. destruct x as [|r2 x]; [discriminate|]. cbn [intro] in *. rewrite H. apply orb_true_r. Qed.

Lemma intro_app p x : intro (p ++ 61%N :: 63%N :: x) = true.
Proof. induction p as [|r p IH]; [reflexivity|]. cbn [app]. now apply intro_cons. Qed.

Notation tokb_char := any_token_char.

Lemma token_class r : bmp r = true -> memb (tt (tok_of r)) (types R_tokenChar) = tokb_char r.
Proof.
  apply class_spec; [vm_compute; reflexivity|]. intros c Hc. unfold any_token_char. rewrite token_hi, hi_eqb by lia. reflexivity.
Qed.

Notation etext_char := any_text_char.

Lemma etext_class r : bmp r = true -> memb (tt (tok_of r)) (types R_encodedChar) = etext_char r.
Proof.
  apply class_spec; [vm_compute; reflexivity|]. unfold any_text_char. hi_range. reflexivity.
Qed.

Lemma lang_token w : lang (Nt R_token) w <-> w <> [] /\ Forall (fun t => In (tt t) (types R_tokenChar)) w.
Proof.
  rewrite lang_nt. change (body R_token) with (Plus (Nt R_tokenChar)). split.
  - apply plus_single. reflexivity.
  - intros [H1 H2]. now apply plus_single_i.
Qed.

Lemma lang_etext w : lang (Nt R_encodedText) w <-> w <> [] /\ Forall (fun t => In (tt t) (types R_encodedChar)) w.
Proof.
  rewrite lang_nt. change (body R_encodedText) with (Plus (Nt R_encodedChar)). split.
  - apply plus_single. reflexivity.
  - intros [H1 H2]. now apply plus_single_i.
Qed.

Lemma any_token_no r : any_token_char r = true -> r <> 63%N /\ r <> 61%N.
Proof.
  intros Hr. unfold any_token_char in Hr. apply orb_true_iff in Hr as [Hr|Hr].
  - apply token_no, andb_true_iff in Hr as [H1 H2]. apply negb_true_iff, N.eqb_neq in H1. apply negb_true_iff, N.eqb_neq in H2. auto.
  - apply N.eqb_eq in Hr. subst. split; discriminate.
Qed.

(** the characters of an encoded word of the grammar *)
Definition encg (c e t : list rune) : Prop := full any_token_char c = true /\ full any_token_char e = true /\ full any_text_char t = true.

Lemma encg_wide c e t : encg c e t -> wide (enc_word c e t).
Proof.
  assert (X : forall c, full any_token_char c = true -> widec c).
  { intros x H. apply full_spec in H as [N H]. split; [exact N|]. split; (eapply Forall_impl; [|exact H]); intros r Hr; apply any_token_no in Hr; tauto. }
  intros (H1 & H2 & H3). exists c, e, t. split; [reflexivity|]. split; [auto|]. split; [auto|]. apply full_spec in H3 as [N H3]. split; [|exact N].
  eapply Forall_impl; [|exact H3]. intros r Hr ->. discriminate Hr.
Qed.

Lemma token_chars w : Forall lexed w -> lang (Nt R_token) w -> full any_token_char (rs w) = true.
Proof.
  intros L H. apply lang_token in H as [N H]. apply full_spec. split; [destruct w; [congruence | discriminate]|].
  apply (types_chars R_tokenChar any_token_char) in H; [exact H | apply token_class | exact L].
Qed.

Lemma lang_encodedWord_chars w : Forall lexed w -> lang (Nt R_encodedWord) w -> exists c e t, rs w = enc_word c e t /\ encg c e t.
Proof.
  intros L H. apply lang_nt in H. change (body R_encodedWord) with g_encodedWord in H. unfold g_encodedWord in H. cbn [seqs] in H.
  repeat match goal with H : lang (Seq _ _) _ |- _ => apply lang_seq in H as (? & ? & -> & ? & H) end.
  repeat match goal with H : lang (Tok _) _ |- _ => apply lang_cls in H as (? & -> & [?|[]]) end.
  match goal with H : lang (Nt R_charset) _ |- _ => apply lang_nt in H; change (body R_charset) with (Nt R_token) in H end.
  match goal with H : lang (Nt R_encoding) _ |- _ => apply lang_nt in H; change (body R_encoding) with (Nt R_token) in H end.
  repeat (apply Forall_app in L as [? L]).
  repeat match goal with H : Forall lexed [_] |- _ => apply Forall_inv in H end.
  repeat match goal with H : lang (Nt R_token) _ |- _ => apply token_chars in H; [|assumption] end.
  match goal with H : lang (Nt R_encodedText) ?x, L : Forall lexed ?x |- _ =>
    apply lang_etext in H as [NE HE]; apply (types_chars R_encodedChar etext_char) in HE; [|apply etext_class | exact L] end.
  repeat match goal with H : ?T = tt ?t, L : lexed ?t |- _ => first
    [ assert (tr t = 61%N) by (apply (tok_special T_Equal 61%N t L); [now symmetry | cbn [In]; tauto]); clear H
    | assert (tr t = 63%N) by (apply (tok_special T_Question 63%N t L); [now symmetry | cbn [In]; tauto]); clear H ] end.
  match goal with |- exists _ _ _, rs (_ ++ _ ++ ?c ++ _ ++ ?e ++ _ ++ ?t ++ _) = _ /\ _ => exists (rs c), (rs e), (rs t);
    split; [|split; [assumption | split; [assumption | apply full_spec; split;
      [destruct t; [congruence | discriminate] | exact HE]]]];
    pose proof (enc_word_app (rs c) (rs e) (rs t) []) as X end.
  rewrite app_nil_r in X. rewrite X. rewrite !rs_app. unfold rs. cbn [map app].
  repeat match goal with H : tr _ = _ |- _ => rewrite H end. reflexivity.
Qed.

Lemma lang_encodedWord w : Forall lexed w -> lang (Nt R_encodedWord) w -> wide (rs w).
Proof. intros L H. destruct (lang_encodedWord_chars w L H) as (c & e & t & -> & X). now apply encg_wide. Qed.

(** ** Tame texts *)
Definition tamed (b : bool) (m : mode) (x : list rune) : Prop := forall c e t, has_enc m x c e t -> b = true /\ forallb atext_char (enc_word c e t) = true.

Lemma tamed_next b m y z : tamed b m (y ++ z) -> tamed b (mo m y) z.
Proof.
  intros H c e t (a & r & -> & P & X). apply H. exists (y ++ a), r. split; [now rewrite <- !app_assoc|]. split; [|exact X].
  fold (mo m (y ++ a)). rewrite mo_app. exact P.
Qed.

Lemma tamed_runs b m y z m' E : runs_to m y m' E -> tamed b m (y ++ z) -> tamed b m' z.
Proof. intros R H. apply tamed_next in H. now rewrite (runs_mo _ _ _ _ R) in H. Qed.

Lemma tamed_first b m y z : tamed b m (y ++ z) -> tamed b m y.
Proof. intros H c e t (a & r & -> & X). apply H. exists a, (r ++ z). split; [now rewrite <- !app_assoc | exact X]. Qed.

Lemma encg_enc1 c e t : encg c e t -> forallb atext_char (enc_word c e t) = true -> enc1 (enc_word c e t).
Proof.
  intros (H1 & H2 & H3) A. exists c, e, t. split; [reflexivity|]. unfold enc_word in A. rewrite !forallb_app, !andb_true_iff in A.
  destruct A as (_ & A1 & _ & A2 & _ & A3 & _).
  assert (T : forall x, full any_token_char x = true -> forallb atext_char x = true -> full token_char x = true).
  { intros x H A. apply full_spec in H as [N H]. apply full_spec. split; [exact N|]. rewrite forallb_forall in A. rewrite Forall_forall in *. intros r Hr.
    specialize (H r Hr). specialize (A r Hr). unfold any_token_char in H. apply orb_true_iff in H as [H|H]; [exact H|]. apply N.eqb_eq in H. subst r. discriminate A. }
  split; [auto|]. split; [auto|]. apply full_spec in H3 as [N H3]. apply full_spec. split; [exact N|]. rewrite forallb_forall in A3. rewrite Forall_forall in *. intros r Hr.
  specialize (H3 r Hr). specialize (A3 r Hr). unfold enc_text_char. rewrite A3. unfold any_text_char, in_range in H3. rewrite !andb_true_iff in H3.
  destruct H3 as [[_ H3] H4]. apply N.leb_le in H3. rewrite H4, andb_true_r. apply N.ltb_lt. lia.
Qed.

(** An encoded word of the grammar in a tame text. *)
Lemma T_enc b a e x : Forall lexed e -> lang (Nt R_encodedWord) e -> tamed b (MN a) (rs e ++ x) -> b = true /\ enc1 (rs e).
Proof.
  intros L H K. destruct (lang_encodedWord_chars e L H) as (c & d & t & E & X). rewrite E in *.
  destruct (K c d t) as [Hb A]; [exists [], x; split; [reflexivity | split; [reflexivity | exact X]]|]. split; [exact Hb | now apply encg_enc1].
Qed.

Lemma okruns_from b l1 l2 : forall p, okruns b p (l1 ++ l2) -> exists p', okruns b p' l2.
Proof. induction l1 as [|x l1 IH]; intros p H; [eauto|]. destruct x; cbn [app okruns] in H; try destruct H as [_ H]; eauto. Qed.

Lemma okruns_enc b p a x z : wide x -> okruns b p (em (MN a) (x ++ z)) -> b = true /\ enc1 x.
Proof.
  intros H K. apply okruns_lead in K. set (s := takeA (x ++ z)) in *.
  assert (Es : exists z, s = 61%N :: 63%N :: z).
  { unfold s. destruct H as (c & e' & t & -> & _). rewrite enc_word_app. cbn [takeA]. change (atext_char 61%N) with true. change (atext_char 63%N) with true. eauto. }
  destruct K as [K|[Hb K]].
  { destruct Es as [y Ez]. rewrite Ez, intro_app in K. discriminate. }
  split; [exact Hb|]. apply is_enc_encl in K as [(l & El & Fl) _]. symmetry in El.
  destruct (takeA_split (x ++ z)) as [y [Ey Ny]]. fold s in Ey.
  destruct (align l Fl p s y x z H El (eq_sym Ey) Es) as (l1 & l2 & E1 & E2 & F1 & F2 & F3). exact F2.
Qed.

Lemma okruns_tamed b p m x : okruns b p (em m x) -> tamed b m x.
Proof.
  intros K c e t (a & z & -> & P & X). rewrite em_app in K. apply okruns_from in K as [p' K]. fold (mo m a) in P. destruct (mo m a) as [ang| | | | |]; try discriminate P.
  apply okruns_enc in K as [Hb K]; [|now apply encg_wide]. split; [exact Hb|]. apply enc1_atext in K. rewrite forallb_forall. rewrite Forall_forall in K. exact K.
Qed.

(** ... and conversely. *)
Lemma toks_types r f x : (forall c, bmp c = true -> memb (tt (tok_of c)) (types r) = f c) -> Forall (fun c => bmp c = true) x ->
  Forall (fun c => f c = true) x -> Forall (fun t => In (tt t) (types r)) (toks x).
Proof.
  intros H B F. unfold toks. rewrite Forall_map. rewrite Forall_forall in *. intros c Hc. apply (class_In (types r) f); auto.
Qed.

Lemma hi_bmp (f : rune -> bool) : (forall r, (128 <= r)%N -> f r = false) -> forall r, f r = true -> bmp r = true.
Proof.
  intros H r Hr. destruct (N.lt_ge_cases r 128) as [L|L]; [unfold bmp; apply N.leb_le; lia|]. rewrite H in Hr by assumption. discriminate.
Qed.

Lemma lang_token_i c : full token_char c = true -> lang (Nt R_token) (toks c).
Proof.
  intros H. apply full_spec in H as [N H]. apply lang_token. split; [destruct c; [congruence | discriminate]|].
  apply (toks_types R_tokenChar tokb_char); [apply token_class | |].
  - eapply Forall_impl; [|exact H]. apply hi_bmp, token_hi.
  - eapply Forall_impl; [|exact H]. intros r Hr. unfold any_token_char. cbv beta in Hr. now rewrite Hr.
Qed.

Lemma lang_etext_i c : full enc_text_char c = true -> lang (Nt R_encodedText) (toks c).
Proof.
  intros H. apply full_spec in H as [N H]. apply lang_etext. split; [destruct c; [congruence | discriminate]|].
  apply (toks_types R_encodedChar etext_char); [apply etext_class | |].
  - eapply Forall_impl; [|exact H]. apply hi_bmp, enc_text_hi.
  - eapply Forall_impl; [|exact H]. intros r. apply char_all; [vm_compute; reflexivity | apply enc_text_hi].
Qed.

Lemma enc1_lang x : enc1 x -> lang (Nt R_encodedWord) (toks x).
Proof.
  intros (c & e & t & -> & H1 & H2 & H3). unfold enc_word. rewrite !toks_app.
  apply lang_nt_i. change (body R_encodedWord) with g_encodedWord. unfold g_encodedWord. cbn [seqs].
  change (toks (bs "=?")) with ([tok_of 61%N] ++ [tok_of 63%N]). change (toks (bs "?")) with [tok_of 63%N].
  change (toks (bs "?=")) with ([tok_of 63%N] ++ [tok_of 61%N]). rewrite <- app_assoc.
  repeat (apply lang_seq_i; [first [apply lang_cls_i; left; reflexivity | apply lang_nt_i; apply lang_token_i; assumption | apply lang_etext_i; assumption] |]).
  apply lang_cls_i. left. reflexivity.
Qed.

Lemma encl_lang u x u' : opt_cfws u -> encl x -> x <> [] -> opt_cfws u' -> lang g_encs (u ++ toks x ++ u').
Proof.
  intros Hu (l & -> & F) N Hu'. destruct F as [|e l He F]; [exfalso; apply N; reflexivity|]. clear N. unfold g_encs.
  revert u Hu e He. induction F as [|e2 l He2 F IH]; intros u Hu e He.
  - cbn [concat]. rewrite app_nil_r. rewrite <- (app_nil_r (u ++ toks e ++ u')). apply lang_seq_i; [|apply lang_star_nil].
    repeat apply lang_seq_i; auto using enc1_lang.
  - change (concat (e :: e2 :: l)) with (e ++ concat (e2 :: l)). rewrite toks_app.
    replace (u ++ (toks e ++ toks (concat (e2 :: l))) ++ u') with ((u ++ toks e ++ []) ++ ([] ++ toks (concat (e2 :: l)) ++ u')) by (cbn [app]; rewrite app_nil_r, <- !app_assoc; reflexivity).
    apply lang_seq_i.
    + repeat apply lang_seq_i; auto using enc1_lang, lang_opt_none.
    + specialize (IH [] (lang_opt_none _) e2 He2). apply lang_seq in IH as (y & z & E & H1 & H2). rewrite E. now apply lang_star_cons.
Qed.

Lemma encl_app x y : encl x -> encl y -> encl (x ++ y).
Proof. intros (l & -> & H) (m & -> & H'). exists (l ++ m). split; [now rewrite concat_app|]. apply Forall_app. auto. Qed.

Lemma encl_one x : enc1 x -> encl x.
Proof. intros H. exists [x]. split; [cbn; now rewrite app_nil_r | auto]. Qed.

Lemma encl_nil : encl [].
Proof. exists []. auto. Qed.

Lemma encl_rest x y : encl x -> encl (x ++ y) -> encl y.
Proof.
  intros (l & -> & H) (m & E & H'). revert m E H'. induction H as [|e l He H IH]; intros m E H'.
  - exists m. auto.
  - destruct H' as [|e' m He' H']; cbn [concat app] in E.
    + apply enc1_nonnil in He as [z ->]. discriminate.
    + rewrite <- app_assoc in E. apply wide_det in E as [-> E]; [|now apply enc1_wide | now apply enc1_wide]. eapply IH; eauto.
Qed.
