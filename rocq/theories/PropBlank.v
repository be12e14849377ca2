(** C79: tabs and spaces. *)
From Coq Require Import String List NArith ZArith Bool Arith Lia.
From Verif Require Import Lexer Grammar Utf8 Strs Mime GoTime Parser Walker Api Spec ParserFacts
  WalkerFacts Static Total Cfws LangFacts LexFacts Utf8Facts First DateSpec Dates DateText AddrSpec Chosen AddrSem CharFacts PropApi PropInv PropDate
  ScanSpec AddrText MboxList TextLang EncText EncConv PropStable DateAccept AcceptText AcceptFacts PropAccept PropApart PropClosed ScanFacts ScanEnc ScanPhase PropScan PropCase PropInside.
Import ListNotations.
Local Open Scope N_scope.
Local Open Scope text_scope.

(** ** Specification *)
(** tabs become spaces *)
Definition untab (r : rune) : rune := if r =? 9 then 32 else r.
Definition untabbed (x : list rune) : list rune := map untab x.

(** ** Acceptance *)
Definition solid (r : rune) : Prop := r <> 9 /\ r <> 32.
Lemma untab_cases a b : untab a = untab b -> a = b \/ (blank_char a = true /\ blank_char b = true).
Proof.
  unfold untab, blank_char. destruct (N.eqb_spec a 9), (N.eqb_spec b 9); intros E; subst; auto; right; rewrite ?E, ?orb_true_r; auto.
Qed.
Lemma untab_class (p : rune -> bool) a b : p 9 = p 32 -> untab a = untab b -> p a = p b.
Proof.
  intros H E. apply untab_cases in E as [->|[Ha Hb]]; [reflexivity|]. unfold blank_char in *. apply orb_true_iff in Ha as [Ha|Ha], Hb as [Hb|Hb]; apply N.eqb_eq in Ha, Hb; subst; congruence.
Qed.
Lemma untab_solid a b : solid a -> untab a = untab b -> b = a.
Proof.
  intros [H1 H2] E. apply untab_cases in E as [->|[Ha _]]; [reflexivity|]. unfold blank_char in Ha. apply orb_true_iff in Ha as [Ha|Ha]; apply N.eqb_eq in Ha; congruence.
Qed.
Lemma untab_solids x : Forall solid x -> forall y, untabbed x = untabbed y -> y = x.
Proof.
  induction 1 as [|r x Hr _ IH]; intros [|r2 y] E; try discriminate; [reflexivity|]. injection E as E1 E2. f_equal; [exact (untab_solid _ _ Hr E1) | exact (IH y E2)].
Qed.
Lemma untab_app u v y : untabbed (u ++ v) = untabbed y -> exists u' v', y = u' ++ v' /\ untabbed u = untabbed u' /\ untabbed v = untabbed v'.
Proof.
  unfold untabbed. rewrite map_app. intros E. symmetry in E. apply map_eq_app in E as (u' & v' & -> & E1 & E2). exists u', v'. auto.
Qed.
Lemma untab_cons r v y : untabbed (r :: v) = untabbed y -> exists r' v', y = r' :: v' /\ untab r = untab r' /\ untabbed v = untabbed v'.
Proof. destruct y as [|r' v']; intros E; [discriminate|]. injection E as E1 E2. exists r', v'. auto. Qed.

Definition swaps (P : texts) : Prop := forall x, P x -> forall y, untabbed x = untabbed y -> P y.
Lemma swaps_cat P Q : swaps P -> swaps Q -> swaps (P ;; Q).
Proof. intros HP HQ x (u & v & -> & Hu & Hv) y E. apply untab_app in E as (u' & v' & -> & E1 & E2). exists u', v'. eauto. Qed.
Lemma swaps_either P Q : swaps P -> swaps Q -> swaps (P <|> Q).
Proof. intros HP HQ x [H|H] y E; [left | right]; eauto. Qed.
Lemma swaps_optional P : swaps P -> swaps (optional P).
Proof. intros HP x [->|H] y E; [left; destruct y; [reflexivity | discriminate] | right; eauto]. Qed.
Lemma swaps_many P : swaps P -> swaps (many P).
Proof.
  intros HP x H. induction H as [|u v Hu Hv IH]; intros y E; [destruct y; [constructor | discriminate]|]. apply untab_app in E as (u' & v' & -> & E1 & E2). constructor; eauto.
Qed.
Lemma swaps_solid (P : texts) : (forall x, P x -> Forall solid x) -> swaps P.
Proof. intros H x Hx y E. apply (untab_solids x (H x Hx)) in E. now subst y. Qed.
Lemma swaps_one (p : rune -> bool) : p 9 = p 32 -> swaps (one p).
Proof.
  intros H x (r & -> & Hr) y E. apply untab_cons in E as (r' & v' & -> & E1 & E2). destruct v'; [|discriminate]. exists r'. split; [reflexivity|]. now rewrite <- (untab_class p r r' H E1).
Qed.
Lemma swaps_lit s : forallb (fun r => negb (N.eqb r 9) && negb (N.eqb r 32)) (bs s) = true -> swaps (lit s).
Proof.
  intros H. apply swaps_solid. intros x Hx. unfold lit in Hx. subst x. apply Forall_forall. intros r Hr. rewrite forallb_forall in H. specialize (H r Hr).
  apply andb_true_iff in H as [H1 H2]. apply negb_true_iff, N.eqb_neq in H1, H2. now split.
Qed.
Lemma swaps_named l : Forall (Forall (fun c => 97 <= c <= 122)) l -> swaps (named l).
Proof.
  intros Hl. apply swaps_solid. intros x Hx. pose proof (lower_letters _ _ Hx Hl) as F. revert F. apply Forall_impl. intros r Hr. apply good_letter in Hr as [F _]. split; intros ->; discriminate F.
Qed.
Lemma swaps_blanks : swaps blanks.
Proof.
  intros x H. induction H as [|r x Hr _ IH]; intros y E; [destruct y; [constructor | discriminate]|]. apply untab_cons in E as (r' & v' & -> & E1 & E2).
  constructor; [|now apply IH]. rewrite <- (untab_class blank_char r r' eq_refl E1). exact Hr.
Qed.
Lemma untab_some x y : untabbed x = untabbed y -> x <> [] -> y <> [].
Proof. intros E N ->. destruct x; [congruence | discriminate]. Qed.
Lemma swaps_fold : swaps fold.
Proof.
  intros x [a N H|a b Ha N Hb] y E.
  - constructor; [exact (untab_some _ _ E N) | exact (swaps_blanks a H y E)].
  - apply untab_app in E as (a' & z & -> & E1 & E). apply untab_app in E as (l & b' & -> & E2 & E3).
    assert (L : l = [13; 10]) by (apply (untab_solids [13; 10]); [repeat constructor; discriminate | exact E2]). subst l.
    constructor; [exact (swaps_blanks a Ha a' E1) | exact (untab_some _ _ E3 N) | exact (swaps_blanks b Hb b' E3)].
Qed.
Lemma swaps_ofold : swaps (optional fold).
Proof. apply swaps_optional, swaps_fold. Qed.
Lemma untab_at r s v y : solid r -> untabbed (s ++ [r] ++ v) = untabbed y -> exists s' v', y = s' ++ [r] ++ v' /\ untabbed s = untabbed s' /\ untabbed v = untabbed v'.
Proof.
  intros Hr E. apply untab_app in E as (s' & z & -> & E1 & E). apply untab_cons in E as (r' & v' & -> & E2 & E3). apply (untab_solid r) in E2; [|exact Hr]. subst r'. exists s', v'. auto.
Qed.
Lemma swaps_body : swaps comment_body.
Proof.
  intros x H. induction H as [u Hu|u r b Hu Hr Hb IH|u r b Hu Hr Hb IH|u c b Hu Hc IHc Hb IHb]; intros y E.
  - constructor. exact (swaps_ofold u Hu y E).
  - apply untab_app in E as (u' & z & -> & E1 & E). apply untab_cons in E as (r' & b' & -> & E2 & E3). constructor; [exact (swaps_ofold u Hu u' E1) | | exact (IH b' E3)].
    now rewrite <- (untab_class comment_char r r' eq_refl E2).
  - apply untab_app in E as (u' & z & -> & E1 & E). apply untab_cons in E as (k & z' & -> & E2 & E). apply untab_solid in E2; [|split; discriminate]. subst k.
    apply untab_cons in E as (r' & b' & -> & E3 & E4). apply (cb_pair u' r' b' (swaps_ofold u Hu u' E1)); [|exact (IH b' E4)].
    now rewrite <- (untab_class pair_char r r' eq_refl E3).
  - rewrite <- !app_assoc in E. apply (untab_at 40) in E as (u' & z & -> & E1 & E); [|split; discriminate]. apply (untab_at 41) in E as (c' & b' & -> & E2 & E3); [|split; discriminate].
    pose proof (cb_nested u' c' b' (swaps_ofold u Hu u' E1) (IHc c' E2) (IHb b' E3)) as X. rewrite <- !app_assoc in X. exact X.
Qed.
Lemma swaps_comment : swaps comment.
Proof.
  intros x (b & -> & Hb) y E. apply (untab_at 40 []) in E as (s & z & -> & E1 & E); [|split; discriminate]. destruct s; [|discriminate].
  apply (untab_at 41 b []) in E as (b' & v & -> & E2 & E3); [|split; discriminate]. destruct v; [|discriminate]. exists b'. split; [reflexivity | exact (swaps_body b Hb b' E2)].
Qed.
Lemma swaps_comments : swaps comments.
Proof.
  intros x H. induction H as [u c u' Hu Hc Hu'|u c x Hu Hc Hx IH]; intros y E; apply untab_app in E as (v & z & -> & E1 & E); apply untab_app in E as (d & w & -> & E2 & E3).
  - constructor; [exact (swaps_ofold u Hu v E1) | exact (swaps_comment c Hc d E2) | exact (swaps_ofold u' Hu' w E3)].
  - constructor; [exact (swaps_ofold u Hu v E1) | exact (swaps_comment c Hc d E2) | exact (IH w E3)].
Qed.
Lemma swaps_gap : swaps ogap.
Proof. apply (swaps_optional (fun x => fold x \/ comments x)). apply (swaps_either fold comments); [exact swaps_fold | exact swaps_comments]. Qed.
Lemma swaps_quoted : swaps quoted_string.
Proof.
  assert (B : forall b t, quoted_body b t -> forall y, untabbed b = untabbed y -> exists t', quoted_body y t').
  { intros b t H. induction H as [u Hu|u r b t Hu Hr Hb IH|u r b t Hu Hr Hb IH]; intros y E.
    - eexists. constructor. exact (swaps_ofold u Hu y E).
    - apply untab_app in E as (u' & z & -> & E1 & E). apply untab_cons in E as (r' & b' & -> & E2 & E3). destruct (IH b' E3) as [t' H']. eexists. apply (qb_char u' r' b' t'); [exact (swaps_ofold u Hu u' E1) | | exact H'].
      now rewrite <- (untab_class quoted_char r r' eq_refl E2).
    - apply untab_app in E as (u' & z & -> & E1 & E). apply untab_cons in E as (k & z' & -> & E2 & E). apply untab_solid in E2; [|split; discriminate]. subst k.
      apply untab_cons in E as (r' & b' & -> & E3 & E4). destruct (IH b' E4) as [t' H']. eexists. apply (qb_pair u' r' b' t' (swaps_ofold u Hu u' E1)); [|exact H'].
      now rewrite <- (untab_class pair_char r r' eq_refl E3). }
  intros x (t & b & -> & Hb) y E. apply (untab_at 34 []) in E as (s & z & -> & E1 & E); [|split; discriminate]. destruct s; [|discriminate].
  apply (untab_at 34 b []) in E as (b' & v & -> & E2 & E3); [|split; discriminate]. destruct v; [|discriminate]. destruct (B b t Hb b' E2) as [t' H']. exists t', b'. auto.
Qed.
Lemma swaps_literal : swaps literal_body.
Proof.
  intros x H. induction H as [u Hu|u r b Hu Hr Hb IH]; intros y E.
  - constructor. exact (swaps_ofold u Hu y E).
  - apply untab_app in E as (u' & z & -> & E1 & E). apply untab_cons in E as (r' & b' & -> & E2 & E3). constructor; [exact (swaps_ofold u Hu u' E1) | | exact (IH b' E3)].
    now rewrite <- (untab_class dtext r r' eq_refl E2).
Qed.
Lemma solid_class (p : rune -> bool) r : p 9 = false -> p 32 = false -> p r = true -> solid r.
Proof. intros H1 H2 H. split; intros ->; congruence. Qed.
Lemma solid_all (p : rune -> bool) x : p 9 = false -> p 32 = false -> nonempty_all p x -> Forall solid x.
Proof. intros H1 H2 [_ H]. revert H. apply Forall_impl. intros r. now apply solid_class. Qed.
Lemma solid_lit s : forallb (fun r => negb (N.eqb r 9) && negb (N.eqb r 32)) (bs s) = true -> Forall solid (bs s).
Proof.
  intros H. apply Forall_forall. intros r Hr. rewrite forallb_forall in H. specialize (H r Hr). apply andb_true_iff in H as [H1 H2]. apply negb_true_iff, N.eqb_neq in H1, H2. now split.
Qed.
Lemma swaps_encoded : swaps full_encoded_word.
Proof.
  apply swaps_solid. intros x (c & e & t & -> & Hc & He & Ht).
  repeat (apply Forall_app; split); try (apply solid_lit; reflexivity);
    [apply (solid_all enc_token_char) | apply (solid_all enc_token_char) | apply (solid_all enc_char)]; auto.
Qed.
Lemma atom_solid x : atom x -> Forall solid x.
Proof. intros [_ H]. revert H. apply Forall_impl. intros r. now apply (solid_class atext_char). Qed.
Lemma dots_solid d : dot_atom d -> Forall solid d.
Proof.
  assert (J : forall l, Forall atom l -> Forall solid (join (bs ".") l)).
  { induction l as [|a [|b l] IH]; intros H; inversion H; subst; [constructor | cbn [join]; now apply atom_solid|].
    change (join (bs ".") (a :: b :: l)) with (a ++ bs "." ++ join (bs ".") (b :: l)). apply Forall_app. split; [now apply atom_solid|].
    apply Forall_app. split; [now apply solid_lit | now apply IH]. }
  intros (l & _ & H & [->| ->]); [exact (J l H)|]. apply Forall_app. split; [exact (J l H) | now apply solid_lit].
Qed.

Ltac swaps_step :=
  match goal with
  | |- swaps (cat _ _) => apply swaps_cat
  | |- swaps (either _ _) => apply swaps_either
  | |- swaps (optional _) => apply swaps_optional
  | |- swaps (many _) => apply swaps_many
  end.
Lemma swaps_dates : swaps date_texts.
Proof.
  assert (D : swaps digit) by (apply swaps_one; reflexivity). pose proof swaps_gap as G. pose proof swaps_fold as F.
  unfold date_texts.
  repeat first [ exact D | exact G | exact F | swaps_step
    | apply swaps_lit; reflexivity | apply swaps_named; first [exact day_names_letters | exact month_names_letters | exact zone_names_letters] ].
Qed.
Lemma swaps_lists : swaps address_list_texts.
Proof.
  pose proof swaps_gap as G. pose proof swaps_fold as F. pose proof swaps_comment as C. pose proof swaps_quoted as Q. pose proof swaps_encoded as E. pose proof swaps_literal as L.
  assert (A : swaps atom) by (apply swaps_solid, atom_solid).
  assert (T : swaps (one atext_char)) by (apply swaps_one; reflexivity).
  assert (D : swaps digit) by (apply swaps_one; reflexivity).
  assert (DA : swaps dot_atom) by (apply swaps_solid, dots_solid).
  unfold address_list_texts, one_address, group_texts, mailbox_texts, angle_texts, route_texts, spec_texts, domain_texts, local_texts, word_texts, name_texts, name_start.
  repeat first [ exact G | exact F | exact C | exact Q | exact E | exact A | exact T | exact D | exact DA | exact L | swaps_step
    | apply swaps_lit; reflexivity ].
Qed.

(** ** Results *)
Lemma strip_untab x : forall n y, untabbed x = untabbed y -> strip n x = strip n y.
Proof.
  assert (H : forall k x, (length x <= k)%nat -> forall n y, untabbed x = untabbed y -> strip n x = strip n y).
  2: { intros n y. now apply (H (length x)). }
  clear x. induction k as [|k IH]; intros x Hk n y E; [destruct x; [destruct y; [reflexivity | discriminate] | cbn [length] in Hk; lia]|].
  destruct x as [|r x]; [destruct y; [reflexivity | discriminate]|]. apply untab_cons in E as (r' & v & -> & E1 & E2). cbn [length] in Hk.
  assert (I : forall m, strip m x = strip m v) by (intros m; apply IH; [lia | exact E2]).
  assert (SK : match x with _ :: z => strip n z | [] => [] end = match v with _ :: z => strip n z | [] => [] end).
  { destruct x as [|r2 x]; [destruct v; [reflexivity | discriminate]|]. apply untab_cons in E2 as (r2' & v' & -> & _ & E3). apply IH; [cbn [length] in Hk; lia | exact E3]. }
  apply untab_cases in E1 as [<-|[Ha Hb]].
  - cbn [strip]. rewrite !I. destruct n; [reflexivity|]. rewrite SK, !I. reflexivity.
  - unfold blank_char in *. apply orb_true_iff in Ha as [Ha|Ha], Hb as [Hb|Hb]; apply N.eqb_eq in Ha, Hb; subst; destruct n; exact (I _).
Qed.
Definition flat_mode (m : mode) : Prop := match m with MN _ | MC _ _ | MCE _ _ => True | _ => False end.
Lemma run_untab x : forall m y, untabbed x = untabbed y -> Forall simple x -> flat_mode m -> snd (run m x) = snd (run m y).
Proof.
  induction x as [|r x IH]; intros m y E S F; [destruct y; [reflexivity | discriminate]|]. apply untab_cons in E as (r' & v & -> & E1 & E2). inversion S as [|? ? Sr Sx]; subst.
  assert (X : step m r' = step m r).
  { apply untab_cases in E1 as [<-|[Ha Hb]]; [reflexivity|]. unfold blank_char in *.
    apply orb_true_iff in Ha as [Ha|Ha], Hb as [Hb|Hb]; apply N.eqb_eq in Ha, Hb; subst; destruct m; try destruct F; reflexivity. }
  assert (F' : flat_mode (fst (step m r))).
  { unfold simple in Sr. cbn [In] in Sr. destruct m as [a|a n|a n| | |]; try destruct F; cbn [step].
    - destruct (ws r); [exact I|]. destruct (r =? 40); [exact I|]. destruct (N.eqb_spec r 34); [subst; tauto|]. destruct (N.eqb_spec r 91); [subst; tauto|].
      repeat match goal with |- context [if ?b then _ else _] => destruct b; [exact I|] end. exact I.
    - destruct (r =? 40); [exact I|]. destruct (r =? 41); [destruct n; exact I|]. destruct (r =? 92); exact I.
    - exact I. }
  specialize (IH (fst (step m r)) v E2 Sx F'). cbn [run]. rewrite X. destruct (step m r) as [m1 e1]. cbn [fst] in IH. destruct (run m1 x), (run m1 v). cbn [snd] in *. now rewrite IH.
Qed.

(** ** Theorems *)
(** Dates that differ only in that one has tabs where the other has spaces are both accepted or both rejected; and give the same instant. *)
Theorem C79_dates : forall e s1 s2 t, s1 <> [] -> s2 <> [] -> untabbed (kept s1) = untabbed (kept s2) -> lexes e s1 -> lexes e s2 ->
  ParseDateTime e s1 = Ret t None <-> ParseDateTime e s2 = Ret t None.
Proof.
  assert (K : forall e s1 s2 t, s1 <> [] -> s2 <> [] -> untabbed (kept s1) = untabbed (kept s2) -> lexes e s2 -> ParseDateTime e s1 = Ret t None -> ParseDateTime e s2 = Ret t None).
  { intros e s1 s2 t N1 N2 R L H. destruct (proj1 (C57_accepted_dates e s1 N1) (ex_intro _ t H)) as [D _].
    destruct (proj2 (C57_accepted_dates e s2 N2) (conj (swaps_dates _ D _ R) L)) as [t2 H2].
    assert (E : strip_text s1 = strip_text s2) by (apply strip_untab; exact R).
    destruct C34_read_from_stripped_text as (_ & _ & C34 & _). now rewrite (C34 e s1 s2 t t2 N1 N2 E H H2). }
  intros e s1 s2 t N1 N2 E L1 L2. split; apply K; auto.
Qed.

(** Address lists: so too, ... *)
Theorem C79_lists_accepted : forall e s1 s2, s1 <> [] -> s2 <> [] -> untabbed (kept s1) = untabbed (kept s2) -> lexes e s1 -> lexes e s2 ->
  (exists l, ParseAddressList e s1 = Ret l None) <-> (exists l, ParseAddressList e s2 = Ret l None).
Proof.
  intros e s1 s2 N1 N2 E L1 L2. rewrite (C56_accepted_address_lists e s1 N1), (C56_accepted_address_lists e s2 N2).
  split; intros [D _]; split; auto; eapply swaps_lists; eauto.
Qed.
(** ... and without quoted strings, literals and encoded words the addresses are the same. *)
Theorem C79_lists : forall e s1 s2 l1 l2, untabbed (kept s1) = untabbed (kept s2) -> Forall simple (kept s1) ->
  ParseAddressList e s1 = Ret l1 None -> ParseAddressList e s2 = Ret l2 None -> elems l1 = elems l2.
Proof.
  intros e s1 s2 l1 l2 E S1 H1 H2.
  assert (S2 : Forall simple (kept s2)).
  { revert E. generalize (kept s2). induction S1 as [|r x Hr _ IH]; intros y E; [destruct y; [constructor | discriminate]|]. apply untab_cons in E as (r' & v & -> & E1 & E2).
    constructor; [|now apply IH]. apply untab_cases in E1 as [<-|[_ Hb]]; [exact Hr|]. unfold simple. intros K. cbn [In] in K. destruct K as [<-|[<-|[<-|[]]]]; discriminate Hb. }
  destruct (simple_plain _ S1) as [Q1 I1]. destruct (simple_plain _ S2) as [Q2 I2].
  rewrite (C47_without_encoded_words e s1 l1 H1 (or_introl Q1) I1), (C47_without_encoded_words e s2 l2 H2 (or_introl Q2) I2).
  unfold addresses_of, scan. f_equal. exact (run_untab _ (MN false) _ E S1 I).
Qed.

Definition tab : gostring := [9].
Example C79_met : let s1 := bs "a (b  c) d <e@f>" in let s2 := bs "a" ++ tab ++ bs "(b " ++ tab ++ bs "c) d" ++ tab ++ bs "<e@f>" in
  untabbed (kept s1) = untabbed (kept s2) /\ s1 <> s2 /\ lexes env0 s1 /\ lexes env0 s2 /\ Forall simple (kept s1) /\
  ParseAddressList env0 s1 = Ret (Some [mkAddr (bs "a d") (bs "e@f")]) None /\ ParseAddressList env0 s2 = Ret (Some [mkAddr (bs "a d") (bs "e@f")]) None.
Proof.
  cbv zeta. repeat match goal with |- _ /\ _ => split end; try apply env0_lexes; try (vm_compute; reflexivity); try discriminate.
  assert (K1 : kept (bs "a (b  c) d <e@f>") = bs "a (b  c) d <e@f>") by (vm_compute; reflexivity). rewrite K1.
  repeat constructor; vm_compute; intuition discriminate.
Qed.
(** In a quoted string a tab stays a tab. *)
Example C79_quoted_differ : let s1 := bs """a b"" <c@d>" in let s2 := bs """a" ++ tab ++ bs "b"" <c@d>" in
  untabbed (kept s1) = untabbed (kept s2) /\ ParseAddressList env0 s1 = Ret (Some [mkAddr (bs "a b") (bs "c@d")]) None /\
  ParseAddressList env0 s2 = Ret (Some [mkAddr (bs "a" ++ tab ++ bs "b") (bs "c@d")]) None.
Proof. cbv zeta. repeat split; vm_compute; reflexivity. Qed.
