(** C75: no text is both an address list and a date. *)
From Coq Require Import String List NArith ZArith Bool Arith Lia.
From Verif Require Import Lexer Grammar Utf8 Strs Mime GoTime Parser Walker Api Spec ParserFacts
  WalkerFacts Static Total Cfws LangFacts LexFacts Utf8Facts First DateSpec Dates DateText AddrSpec Chosen AddrSem CharFacts PropApi PropInv PropDate
  ScanSpec AddrText MboxList TextLang EncText EncConv PropStable DateAccept AcceptText AcceptFacts PropAccept Lead PropLead.
Import ListNotations.
Local Open Scope text_scope.

(** ** Proofs *)
(** The characters of a date without its gaps: letters, digits, comma, colon, plus and minus. *)
Definition dated (r : rune) : bool := (in_range 65 90 r || in_range 97 122 r || in_range 48 57 r || existsb (N.eqb r) (bs ",:+-"))%N.
Definition odd (l : list rune) : Prop := exists r, In r l /\ dated r = false.
(** What ends an address list that has no other character outside gaps: a list of groups. *)
Definition stop (r : rune) : bool := existsb (N.eqb r) (bs ":;,").
Definition stopped (z : list rune) : Prop := exists z' r, z = z' ++ [r] /\ stop r = true.

Lemma odd_app a b : odd b -> odd (a ++ b).
Proof. intros (r & H & K). exists r. split; [apply in_or_app; now right | exact K]. Qed.

(** Texts after which something odd was seen outside gaps; or that, or texts that leave something of [Q]. *)
Definition seen_odd (x : list rune) : Prop := forall y, bmps y -> odd (strip 0 (x ++ y)).
Definition sure (P : texts) : Prop := forall x, P x -> bmps x -> seen_odd x.
Definition rest (Q P : texts) : Prop := forall x, P x -> bmps x -> seen_odd x \/ exists z, Q z /\ forall y, bmps y -> strip 0 (x ++ y) = z ++ strip 0 y.
Definition anything : texts := fun _ => True.

Lemma sure_rest Q P : sure P -> rest Q P.
Proof. intros H x Hx B. left. apply H; auto. Qed.
Lemma rest_more (Q Q' P : texts) : (forall z, Q z -> Q' z) -> rest Q P -> rest Q' P.
Proof. intros S H x Hx B. destruct (H x Hx B) as [K|(z & K & E)]; [now left | right; eauto]. Qed.
Lemma rest_cat (Q1 Q2 Q P1 P2 : texts) : (forall a b, Q1 a -> Q2 b -> Q (a ++ b)) -> rest Q1 P1 -> rest Q2 P2 -> rest Q (P1 ;; P2).
Proof.
  intros S H1 H2 x (u & v & -> & Hu & Hv) B. apply bmps_app in B as [Bu Bv].
  destruct (H1 u Hu Bu) as [K|(a & Qa & Ea)].
  - left. intros y By. rewrite <- app_assoc. apply K. apply bmps_app. auto.
  - destruct (H2 v Hv Bv) as [K|(b & Qb & Eb)].
    + left. intros y By. rewrite <- app_assoc, Ea by (apply bmps_app; auto). apply odd_app, K, By.
    + right. exists (a ++ b). split; [auto|]. intros y By. rewrite <- app_assoc, Ea by (apply bmps_app; auto). rewrite Eb by exact By. apply app_assoc.
Qed.
Lemma sure_first P1 P2 : sure P1 -> sure (P1 ;; P2).
Proof. intros H x (u & v & -> & Hu & Hv) B. apply bmps_app in B as [Bu Bv]. intros y By. rewrite <- app_assoc. apply (H u Hu Bu). apply bmps_app. auto. Qed.
Lemma sure_then P1 P2 : rest anything P1 -> sure P2 -> sure (P1 ;; P2).
Proof.
  intros H1 H2 x (u & v & -> & Hu & Hv) B. apply bmps_app in B as [Bu Bv]. intros y By. rewrite <- app_assoc.
  destruct (H1 u Hu Bu) as [K|(a & _ & Ea)]; [apply K; apply bmps_app; auto|]. rewrite Ea by (apply bmps_app; auto). apply odd_app, (H2 v Hv Bv), By.
Qed.
Lemma rest_either Q P1 P2 : rest Q P1 -> rest Q P2 -> rest Q (P1 <|> P2).
Proof. intros H1 H2 x [H|H] B; auto. Qed.
Lemma sure_either P1 P2 : sure P1 -> sure P2 -> sure (P1 <|> P2).
Proof. intros H1 H2 x [H|H] B; auto. Qed.
Lemma rest_optional (Q P : texts) : Q [] -> rest Q P -> rest Q (optional P).
Proof. intros N H x [->|Hx] B; [right; exists []; auto | auto]. Qed.
Lemma rest_many (Q P : texts) : Q [] -> (forall a b, Q a -> Q b -> Q (a ++ b)) -> rest Q P -> rest Q (many P).
Proof.
  intros N A H x Hx. induction Hx as [|u v Hu Hv IH]; intros B; [right; exists []; auto|].
  apply (rest_cat Q Q Q (eq u) (eq v)); [exact A | intros ? <- Bu; auto | intros ? <- Bv; auto | exists u, v; auto | exact B].
Qed.

Lemma rest_gap : rest (eq []) ogap.
Proof. intros x Hx B. right. exists []. split; [reflexivity|]. intros y By. now apply gap_strip. Qed.
Lemma rest_fold : rest (eq []) fold.
Proof. intros x Hx. apply rest_gap. right. left. exact Hx. Qed.
Lemma rest_comment : rest (eq []) comment.
Proof. intros x Hx. apply rest_gap. right. right. replace x with ([] ++ x ++ []) by apply app_nil_r. apply cs_one; [now left | exact Hx | now left]. Qed.
Lemma rest_plain (P : texts) : (forall x, P x -> Forall plain x) -> rest P P.
Proof. intros H x Hx B. right. exists x. split; [exact Hx|]. intros y By. apply strip_plain, H, Hx. Qed.
Lemma rest_any_of (Q P : texts) : rest Q P -> rest anything P.
Proof. apply rest_more. unfold anything. auto. Qed.
Lemma plain_atext r : atext_char r = true -> plain r.
Proof. intros H. apply rkind_other; intros ->; vm_compute in H; discriminate. Qed.
Lemma sure_start c (P : texts) : plain c -> dated c = false -> (forall x, P x -> exists x', x = c :: x') -> sure P.
Proof.
  intros Pc D H x Hx B y By. destruct (H x Hx) as [x' ->]. change ((c :: x') ++ y) with ([c] ++ (x' ++ y)). rewrite strip_plain by (constructor; [exact Pc | constructor]). exists c. split; [now left | exact D].
Qed.
Ltac apart := apply rkind_other; discriminate.
Lemma sure_lit c s : plain c -> dated c = false -> bs s = [c] -> sure (lit s).
Proof. intros P D E. apply (sure_start c); auto. unfold lit. intros x Hx. subst x. rewrite E. eauto. Qed.
Lemma rest_lit s : Forall plain (bs s) -> rest (eq (bs s)) (lit s).
Proof. intros H x Hx B. unfold lit in Hx. subst x. right. exists (bs s). split; [reflexivity|]. intros y By. now apply strip_plain. Qed.

Lemma sure_quoted : sure quoted_string.
Proof. apply (sure_start 34%N); [apart | reflexivity|]. intros x (t & b & -> & _). eexists. reflexivity. Qed.
Lemma sure_enc : sure full_encoded_word.
Proof. apply (sure_start 61%N); [apart | reflexivity|]. intros x (c & e & t & -> & _). eexists. reflexivity. Qed.
Lemma sure_at : sure (lit "@").
Proof. now apply (sure_lit 64%N); [apart | |]. Qed.
Lemma dots_plain d : dot_atom d -> Forall plain d.
Proof.
  assert (J : forall l, Forall atom l -> Forall plain (join (bs ".") l)).
  { induction l as [|a [|b l] IH]; intros H; inversion H as [|? ? [_ Ha] Hl]; subst; [constructor | |].
    - cbn [join]. revert Ha. apply Forall_impl, plain_atext.
    - change (join (bs ".") (a :: b :: l)) with (a ++ bs "." ++ join (bs ".") (b :: l)). apply Forall_app. split; [revert Ha; apply Forall_impl, plain_atext|].
      apply Forall_app. split; [repeat constructor; apart | apply IH, Hl]. }
  intros (l & _ & H & [->| ->]); [apply J, H|]. apply Forall_app. split; [apply J, H | repeat constructor; apart].
Qed.

Lemma any_app (a b : list rune) : anything a -> anything b -> anything (a ++ b).
Proof. unfold anything. auto. Qed.
Lemma any_gap : rest anything ogap.
Proof. exact (rest_any_of _ _ rest_gap). Qed.
Lemma any_cat P1 P2 : rest anything P1 -> rest anything P2 -> rest anything (P1 ;; P2).
Proof. apply rest_cat, any_app. Qed.
Lemma any_many P : rest anything P -> rest anything (many P).
Proof. apply rest_many; [exact Logic.I | apply any_app]. Qed.
Lemma any_plain (P : texts) : (forall x, P x -> Forall plain x) -> rest anything P.
Proof. intros H. exact (rest_any_of _ _ (rest_plain P H)). Qed.

Lemma any_start : rest anything name_start.
Proof.
  unfold name_start. apply rest_either; [|apply rest_either; apply sure_rest; [apply sure_quoted | apply sure_enc]].
  apply any_plain. intros x (r & -> & H). constructor; [now apply plain_atext | constructor].
Qed.
Lemma any_name : rest anything name_texts.
Proof.
  unfold name_texts. apply any_cat; [apply any_gap|]. apply any_cat; [apply any_start|]. apply any_many.
  apply rest_either; [apply any_start|]. apply rest_either; [apply sure_rest, (sure_lit 46%N); [apart | reflexivity | reflexivity]|]. apply rest_either; [apply sure_rest, sure_at|].
  apply rest_either; [exact (rest_any_of _ _ rest_fold) | exact (rest_any_of _ _ rest_comment)].
Qed.
Lemma any_word : rest anything word_texts.
Proof.
  unfold word_texts. repeat apply rest_either.
  - apply any_cat; [apply any_gap|]. apply any_cat; [|apply any_gap]. apply any_plain. intros x [_ H]. revert H. apply Forall_impl, plain_atext.
  - apply sure_rest, sure_then; [apply any_gap|]. apply sure_first, sure_quoted.
  - apply sure_rest, sure_first, sure_then; [apply any_gap|]. apply sure_first, sure_enc.
Qed.
Lemma any_local : rest anything local_texts.
Proof.
  unfold local_texts. apply rest_either.
  - apply any_cat; [apply any_gap|]. apply any_cat; [|apply any_gap]. apply any_plain. exact dots_plain.
  - apply any_cat; [apply any_word|]. apply any_many. apply sure_rest, sure_first, (sure_lit 46%N); [apart | reflexivity | reflexivity].
Qed.
Lemma sure_spec : sure spec_texts.
Proof. unfold spec_texts. apply sure_then; [apply any_local|]. apply sure_first, sure_at. Qed.
Lemma sure_angle : sure angle_texts.
Proof. unfold angle_texts. apply sure_then; [apply any_gap|]. apply sure_first. now apply (sure_lit 60%N); [apart | |]. Qed.
Lemma sure_mailbox : sure mailbox_texts.
Proof. unfold mailbox_texts. apply sure_either; [|apply sure_spec]. apply sure_then; [|apply sure_angle]. apply rest_optional; [exact Logic.I | apply any_name]. Qed.

(** nothing, or a text with such an end *)
Definition maybe_stopped : texts := fun z => z = [] \/ stopped z.
Lemma stopped_app a b : maybe_stopped b -> stopped a -> stopped (a ++ b).
Proof.
  intros [->|(z & r & -> & H)] K; [now rewrite app_nil_r|]. exists (a ++ z), r. split; [apply app_assoc | exact H].
Qed.
Lemma stopped_last a b : stopped b -> stopped (a ++ b).
Proof. intros (z & r & -> & H). exists (a ++ z), r. split; [apply app_assoc | exact H]. Qed.
Lemma maybe_app a b : maybe_stopped a -> maybe_stopped b -> maybe_stopped (a ++ b).
Proof. intros [->|H] K; [exact K | right; now apply stopped_app]. Qed.
Lemma maybe_gap : rest maybe_stopped ogap.
Proof. apply rest_more with (2 := rest_gap). intros z <-. now left. Qed.
Lemma stopped_lit c s : plain c -> stop c = true -> bs s = [c] -> rest stopped (lit s).
Proof. intros P D E. eapply rest_more; [|apply rest_lit; rewrite E; constructor; [exact P | constructor]]. intros z <-. exists [], c. rewrite E. auto. Qed.
Lemma stopped_maybe P : rest stopped P -> rest maybe_stopped P.
Proof. apply rest_more. intros z H. now right. Qed.
Lemma maybe_comma : rest stopped (lit ",").
Proof. now apply (stopped_lit 44%N); [apart | |]. Qed.
Lemma maybe_semi : rest stopped (lit ";").
Proof. now apply (stopped_lit 59%N); [apart | |]. Qed.
Lemma rest_group : rest stopped group_texts.
Proof.
  unfold group_texts. apply rest_cat with (Q1 := anything) (Q2 := stopped); [intros a b _; apply stopped_last | |].
  { apply rest_optional; [exact Logic.I|]. apply sure_rest. now apply (sure_lit 34%N); [apart | |]. }
  apply rest_cat with (Q1 := anything) (Q2 := stopped); [intros a b _; apply stopped_last | apply any_name|].
  apply rest_cat with (Q1 := stopped) (Q2 := maybe_stopped); [intros a b Ha Hb; now apply stopped_app | now apply (stopped_lit 58%N); [apart | |]|].
  assert (M : rest maybe_stopped (mailbox_texts <|> ogap)) by (apply rest_either; [apply sure_rest, sure_mailbox | apply maybe_gap]).
  apply rest_cat with (Q1 := maybe_stopped) (Q2 := maybe_stopped); [apply maybe_app | exact M|].
  apply rest_cat with (Q1 := maybe_stopped) (Q2 := maybe_stopped); [apply maybe_app | apply rest_many; [now left | apply maybe_app|]|].
  { apply rest_cat with (Q1 := maybe_stopped) (Q2 := maybe_stopped); [apply maybe_app | apply stopped_maybe, maybe_comma | exact M]. }
  apply rest_cat with (Q1 := maybe_stopped) (Q2 := maybe_stopped); [apply maybe_app | apply rest_optional; [now left|]; apply sure_rest; now apply (sure_lit 34%N); [apart | |]|].
  apply rest_cat with (Q1 := maybe_stopped) (Q2 := maybe_stopped); [apply maybe_app | apply rest_optional; [now left|]; apply stopped_maybe, maybe_semi | apply maybe_gap].
Qed.
Lemma rest_one : rest stopped one_address.
Proof. unfold one_address. apply rest_either; [apply sure_rest, sure_mailbox | apply rest_group]. Qed.
Lemma rest_list : rest stopped address_list_texts.
Proof.
  unfold address_list_texts. apply rest_either.
  - apply rest_cat with (Q1 := stopped) (Q2 := maybe_stopped); [intros a b Ha Hb; now apply stopped_app | apply rest_one|].
    apply rest_many; [now left | apply maybe_app|]. apply stopped_maybe. apply rest_cat with (Q1 := stopped) (Q2 := stopped); [intros a b _; apply stopped_last | | apply rest_one].
    apply rest_either; [apply maybe_comma | apply maybe_semi].
  - apply rest_cat with (Q1 := anything) (Q2 := stopped); [intros a b _; apply stopped_last | |].
    { apply any_many, any_cat; [apply any_gap | exact (rest_any_of _ _ maybe_comma)]. }
    apply rest_cat with (Q1 := stopped) (Q2 := maybe_stopped); [intros a b Ha Hb; now apply stopped_app | apply rest_one|].
    apply rest_many; [now left | apply maybe_app|]. apply stopped_maybe. apply rest_cat with (Q1 := stopped) (Q2 := maybe_stopped); [intros a b Ha Hb; now apply stopped_app | apply maybe_comma|].
    apply rest_either; [apply stopped_maybe, rest_one | apply maybe_gap].
Qed.

(** A date. *)
Definition good (r : rune) : Prop := dated r = true /\ stop r = false.
Lemma good_range r : (65 <= r <= 90 \/ 97 <= r <= 122 \/ 48 <= r <= 57)%N -> good r.
Proof.
  intros H. unfold good, dated, stop, in_range. change (bs ",:+-") with [44; 58; 43; 45]%N. change (bs ":;,") with [58; 59; 44]%N. cbn [existsb]. split; lia.
Qed.
Lemma good_letter r : letter r -> good r.
Proof.
  intros H. apply good_range. revert H. unfold letter, lower_byte, in_range. destruct ((65 <=? r) && (r <=? 90))%N eqn:E; lia.
Qed.
Lemma good_digit r : is_dig r -> good r.
Proof. unfold is_dig. intros H. apply good_range. lia. Qed.
Lemma good_dated l : Forall good l -> Forall (fun r => dated r = true) l.
Proof. apply Forall_impl. intros r H. apply H. Qed.
Lemma good_zone z l : zone_text z l -> Forall good z.
Proof.
  intros H. destruct H as [|h1 h2 m1 m2 H|h1 h2 m1 m2 H|h1 h2 m1 m2 H|n hours H].
  - constructor.
  - apply Forall_app. split; [repeat constructor | revert H; apply Forall_impl, good_digit].
  - apply Forall_app. split; [repeat constructor | revert H; apply Forall_impl, good_digit].
  - revert H. apply Forall_impl, good_digit.
  - apply (Forall_impl _ good_letter). apply (lower_letters _ _ (in_map fst _ _ H) zone_names_letters).
Qed.
Lemma good_num n l : ndigits n l -> Forall good l.
Proof. intros [_ H]. revert H. apply Forall_impl, good_digit. Qed.
Lemma end_good p l : Forall good l -> l <> [] -> exists z r, p ++ l = z ++ [r] /\ stop r = false.
Proof. intros H N. destruct (exists_last N) as (l' & r & ->). exists (p ++ l'), r. split; [apply app_assoc|]. apply Forall_app in H as [_ H]. inversion H as [|? ? [_ K] _]. exact K. Qed.
Lemma spell_date d : wf_date d -> Forall (fun r => dated r = true) (spell d) /\ exists z r, spell d = z ++ [r] /\ stop r = false.
Proof.
  intros (Hw & Hd & Hy & Hh & Hm & Hs & Hn & l & Hz).
  assert (Gd : Forall good (d_day d)) by (destruct Hd; eauto using good_num).
  assert (Gy : Forall good (d_year d)) by (destruct Hy; eauto using good_num).
  assert (Gh : Forall good (d_hour d)) by (destruct Hh; eauto using good_num).
  pose proof (good_num _ _ Hm) as Gm. pose proof (good_zone _ _ Hz) as Gz.
  assert (Gs : Forall good (d_sec d)) by (destruct Hs as [->|Hs]; [constructor | eauto using good_num]).
  assert (Gn : Forall good (d_mon d)) by (apply (Forall_impl _ good_letter), (lower_letters _ _ Hn month_names_letters)).
  assert (Gw : Forall good (d_dow d)) by (destruct Hw as [->|Hw]; [constructor | apply (Forall_impl _ good_letter), (lower_letters _ _ Hw day_names_letters)]).
  assert (Nm : d_min d <> []) by (destruct Hm as [Hm _]; intros E; rewrite E in Hm; discriminate).
  unfold spell. split.
  - repeat (apply Forall_app; split); auto using good_dated.
    + destruct (d_dow d) as [|a w]; [constructor|]. apply Forall_app. split; [auto using good_dated | repeat constructor].
    + repeat constructor.
    + destruct (d_sec d) as [|a w]; [constructor|]. apply Forall_app. split; [repeat constructor | auto using good_dated].
  - rewrite !app_assoc. destruct (d_zone d) as [|z0 z1] eqn:Ez; [|apply end_good; [exact Gz | discriminate]].
    rewrite app_nil_r. destruct (d_sec d) as [|s0 s1] eqn:Es; [rewrite app_nil_r; apply end_good; auto|].
    rewrite app_assoc. apply end_good; [exact Gs | discriminate].
Qed.

(** ** Theorem *)
(** No text but the empty one is accepted by both functions, in whatever environments; the empty one is. *)
Theorem C75_no_text_is_both : forall e1 e2 s l t,
  ParseAddressList e1 s = Ret l None -> ParseDateTime e2 s = Ret t None -> s = [].
Proof.
  intros e1 e2 s l t HA HD. destruct s as [|c s]; [reflexivity|]. exfalso. set (x := c :: s) in *. assert (N : x <> []) by discriminate. clearbody x.
  destruct (proj1 (C56_accepted_address_lists e1 x N) (ex_intro _ l HA)) as [A _].
  destruct (accepted_reading e2 x t N HD) as (d & S & V). apply denotes_wf in V. destruct (spell_date d V) as [G (z & r & Ez & Hr)].
  rewrite <- S in G, Ez. rewrite strip_kept in G, Ez.
  destruct (rest_list _ A (kept_bmp x)) as [K|(z' & (z2 & r' & -> & Hr') & E)].
  - destruct (K [] (Forall_nil _)) as (b & Ib & Db). rewrite app_nil_r in Ib. rewrite Forall_forall in G. rewrite (G b Ib) in Db. discriminate.
  - specialize (E [] (Forall_nil _)). rewrite app_nil_r in E. cbn [strip] in E. rewrite app_nil_r in E. rewrite E in Ez. apply app_inj_tail in Ez as [_ ->]. congruence.
Qed.

(** Said the other way round: a caller that does not know which of the two a text is can try both, in any order. *)
Theorem C75_try_both : forall e1 e2 s, s <> [] ->
  (forall t, ParseDateTime e2 s = Ret t None -> exists er, ParseAddressList e1 s = Ret None (Some er)) /\
  (forall l, ParseAddressList e1 s = Ret l None -> exists er, ParseDateTime e2 s = Ret zero_time (Some er)).
Proof.
  intros e1 e2 s N. split.
  - intros t HD. destruct (C01_address_list_contract e1 s) as [[l H]|H]; [|exact H]. destruct (N (C75_no_text_is_both e1 e2 s l t H HD)).
  - intros l HA. destruct (C02_date_time_contract e2 s) as [[t H]|H]; [|exact H]. destruct (N (C75_no_text_is_both e1 e2 s l t HA H)).
Qed.

(** Texts that come near: a group whose name is a date without its minutes, and a date, both with an at-sign in a comment. *)
Example C75_near : let a := bs "1 Jan 2020 10: (@ 30)" in let d := bs "1 Jan 2020 10: (@) 30" in
  ParseAddressList env0 a = Ret None None /\ ParseDateTime env0 a = Ret zero_time (Some ESyntax) /\
  (exists t, ParseDateTime env0 d = Ret t None) /\ ParseAddressList env0 d = Ret None (Some ESyntax).
Proof. split; [vm_compute; reflexivity|]. split; [vm_compute; reflexivity|]. split; [eexists; vm_compute; reflexivity | vm_compute; reflexivity]. Qed.
