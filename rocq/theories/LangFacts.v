(** Building sentences: introduction rules for [lang]; sentences depend on token types only. *)
From Coq Require Import String List NArith ZArith Bool Arith Lia.
From Verif Require Import Lexer Grammar Utf8 Strs Parser Api Spec ParserFacts Static Utf8Facts DateSpec
  LexFacts.
Import ListNotations.

Lemma lang_seq_i a b u v : lang a u -> lang b v -> lang (Seq a b) (u ++ v).
Proof. intros H1 H2. apply lang_seq. eauto. Qed.

Lemma lang_cls_i ts t : In (tt t) ts -> lang (Cls ts) [t].
Proof. intros H. apply lang_cls. eauto. Qed.

Lemma lang_nt_i r w : lang (body r) w -> lang (Nt r) w.
Proof. apply lang_nt. Qed.

Lemma lang_opt_none a : lang (Opt a) [].
Proof. apply lang_alt. right. now apply lang_eps. Qed.

Lemma lang_opt_some a w : lang a w -> lang (Opt a) w.
Proof. intros H. apply lang_alt. now left. Qed.

Lemma lang_altl a b w : lang a w -> lang (Alt a b) w.
Proof. intros H. apply lang_alt. now left. Qed.

Lemma lang_altr a b w : lang b w -> lang (Alt a b) w.
Proof. intros H. apply lang_alt. now right. Qed.

Lemma lang_star_nil a : lang (Star a) [].
Proof. apply lang_star. now left. Qed.

Lemma lang_star_cons a u v : lang a u -> lang (Star a) v -> lang (Star a) (u ++ v).
Proof. intros H1 H2. apply lang_star. right. eauto. Qed.

Lemma lang_star_concat a us : Forall (lang a) us -> lang (Star a) (concat us).
Proof. induction 1; [apply lang_star_nil | now apply lang_star_cons]. Qed.

Lemma lang_plus_concat a us : us <> [] -> Forall (lang a) us -> lang (Plus a) (concat us).
Proof.
  intros H0 H. destruct H as [|u us Hu Hus]; [congruence|]. apply lang_seq_i; [assumption|].
  now apply lang_star_concat.
Qed.

Lemma lang_opt_inv a w : lang (Opt a) w -> lang a w \/ w = [].
Proof. intros H. apply lang_alt in H as [H|H]; [auto|]. apply lang_eps in H. auto. Qed.

Lemma lang_star_inv a w : lang (Star a) w -> exists us, w = concat us /\ Forall (lang a) us.
Proof.
  intros [f [D <-]]. apply derives_star in D as [fs [-> Hfs]]. exists (map yields fs).
  split; [|rewrite Forall_map; eapply Forall_impl; [|exact Hfs]; intros f Hf; exists f; auto].
  clear. induction fs as [|f fs IH]; [reflexivity|]. cbn. now rewrite yields_app, IH.
Qed.

Lemma lang_plus_inv a w : lang (Plus a) w -> exists u us, w = concat (u :: us) /\ Forall (lang a) (u :: us).
Proof.
  intros H. apply lang_seq in H as [u [v [-> [H1 H2]]]]. apply lang_star_inv in H2 as [us [-> H2]].
  exists u, us. split; [reflexivity | now constructor].
Qed.

(** Sentences depend on the token types only. *)
Lemma map_tt_app w u v : map tt w = map tt (u ++ v) -> exists w1 w2, w = w1 ++ w2 /\ map tt w1 = map tt u /\ map tt w2 = map tt v.
Proof. rewrite map_app. intros H. apply map_eq_app in H as [w1 [w2 [-> [H1 H2]]]]. eauto. Qed.

Lemma lang_types g w w' : map tt w = map tt w' -> lang g w' -> lang g w.
Proof.
  intros E [f [D Y]]. subst w'. revert w E. induction D; intros w E.
  - destruct w as [|t' [|? ?]]; try discriminate. injection E as E. apply lang_cls_i. now rewrite E.
  - destruct w; [now apply lang_eps | discriminate].
  - rewrite yields_node in E. apply lang_nt_i. auto.
  - rewrite yields_app in E. apply map_tt_app in E as [w1 [w2 [-> [E1 E2]]]]. apply lang_seq_i; auto.
  - apply lang_altl. auto.
  - apply lang_altr. auto.
  - destruct w; [apply lang_star_nil | discriminate].
  - rewrite yields_app in E. apply map_tt_app in E as [w1 [w2 [-> [E1 E2]]]]. apply lang_star_cons; auto.
Qed.

(** Deciding one sentence by running the recogniser. *)
Lemma lang_check n g w : accepts n [g] w = true -> lang g w.
Proof.
  intros H. apply accepts_set_sound in H as [w' [[<-|[]] Hs]].
  destruct Hs as [u [v [-> [Hl Hv]]]]. cbn in Hv. subst v. rewrite app_nil_r. exact Hl.
Qed.

(** ** Tokens of text *)
Definition toks (rs : list rune) : word := map tok_of rs.

Lemma toks_app a b : toks (a ++ b) = toks a ++ toks b.
Proof. apply map_app. Qed.

Lemma ascii_bmp rs : Forall ascii rs -> filter bmp rs = rs.
Proof.
  induction 1 as [|c rs Hc H IH]; [reflexivity|]. cbn [filter]. unfold bmp at 1.
  replace (c <=? 65535)%N with true; [now rewrite IH|]. symmetry. apply N.leb_le. unfold ascii in Hc. lia.
Qed.

Lemma lex_bmp_text m rs : Forall (fun r => bmp r = true) rs -> lex m rs = toks rs ++ [eof_tok].
Proof.
  intros H. unfold lex. f_equal. induction H as [|r rs Hr H IH]; [reflexivity|].
  cbn [flat_map toks map]. unfold toks in IH. rewrite IH. unfold lex1, tok_of.
  destruct (lex_bmp r Hr) as [t ->]. reflexivity.
Qed.

Lemma tokens_ascii e s : Forall ascii s -> tokens e s = toks s ++ [eof_tok].
Proof.
  intros H. unfold tokens. rewrite decode_all_ascii by assumption. apply lex_bmp_text.
  eapply Forall_impl; [|exact H]. intros c Hc. unfold bmp. apply N.leb_le. unfold ascii in Hc. lia.
Qed.

Lemma tok_of_digit c : is_dig c -> tt (tok_of c) = T_Digit.
Proof.
  intros H. unfold tok_of. cbn [tt]. unfold is_dig in H.
  assert (E : exists k, (k < 10)%nat /\ c = N.of_nat (48 + k)).
  { exists (N.to_nat (c - 48)). lia. }
  destruct E as [k [Hk ->]]. do 10 (destruct k as [|k]; [reflexivity|]). lia.
Qed.

Lemma tok_of_letter c : (97 <= lower_byte c <= 122)%N -> tt (tok_of c) = (lower_byte c - 52)%N.
Proof.
  intros H. unfold lower_byte, in_range in *.
  assert (E : exists k, (k < 26)%nat /\ (c = N.of_nat (65 + k) \/ c = N.of_nat (97 + k))).
  { destruct (N.leb_spec 65 c); destruct (N.leb_spec c 90); cbn in H.
    - exists (N.to_nat (c - 65)). lia.
    - exists (N.to_nat (c - 97)). lia.
    - exists (N.to_nat (c - 97)). lia.
    - exists (N.to_nat (c - 97)). lia. }
  clear H. destruct E as [k [Hk [-> | ->]]]; do 26 (destruct k as [|k]; [reflexivity|]); lia.
Qed.

Lemma letter_ascii c : (97 <= lower_byte c <= 122)%N -> ascii c.
Proof.
  unfold lower_byte, in_range, ascii.
  destruct (N.leb_spec 65 c); destruct (N.leb_spec c 90); cbn; lia.
Qed.

Lemma digit_ascii c : is_dig c -> ascii c.
Proof. unfold is_dig, ascii. lia. Qed.
