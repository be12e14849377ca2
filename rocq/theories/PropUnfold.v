(** C80: unfolding. *)
From Coq Require Import String List NArith ZArith Bool Arith Lia.
From Verif Require Import Lexer Grammar Utf8 Strs Mime GoTime Parser Walker Api Spec ParserFacts
  WalkerFacts Static Total Cfws LangFacts LexFacts Utf8Facts First DateSpec Dates DateText AddrSpec Chosen AddrSem CharFacts PropApi PropInv PropDate
  ScanSpec AddrText MboxList TextLang EncText EncConv PropStable DateAccept AcceptText AcceptFacts PropAccept PropApart PropClosed PropInside PropBlank.
Import ListNotations.
Local Open Scope N_scope.
Local Open Scope text_scope.

(** ** Specification *)
(** [y] is [x] without some of its line breaks *)
Inductive unfolded : list rune -> list rune -> Prop :=
| uf_end : unfolded [] []
| uf_keep r x y : unfolded x y -> unfolded (r :: x) (r :: y)
| uf_drop x y : unfolded x y -> unfolded (13 :: 10 :: x) y.

(** ** Acceptance *)
Definition head_ok (x : list rune) : Prop := match x with 10 :: _ => False | _ => True end.
Lemma unfolded_app u : forall v y, head_ok v -> unfolded (u ++ v) y -> exists u' v', y = u' ++ v' /\ unfolded u u' /\ unfolded v v'.
Proof.
  assert (H : forall x y, unfolded x y -> forall u v, x = u ++ v -> head_ok v -> exists u' v', y = u' ++ v' /\ unfolded u u' /\ unfolded v v').
  { induction 1 as [|r x y H IH|x y H IH]; intros u' v' E Hv.
    - symmetry in E. apply app_eq_nil in E as [-> ->]. exists [], []. split; [reflexivity | split; constructor].
    - destruct u' as [|r2 u'].
      + cbn [app] in E. subst v'. exists [], (r :: y). split; [reflexivity|]. split; [constructor | now constructor].
      + injection E as <- E. destruct (IH u' v' E Hv) as (a & b & -> & Ha & Hb). exists (r :: a), b. split; [reflexivity|]. split; [now constructor | exact Hb].
    - destruct u' as [|r2 [|r3 u']].
      + cbn [app] in E. subst v'. exists [], y. split; [reflexivity|]. split; [constructor | now constructor].
      + cbn [app] in E. injection E as <- E. subst v'. destruct Hv.
      + injection E as <- <- E. destruct (IH u' v' E Hv) as (a & b & -> & Ha & Hb). exists a, b. split; [reflexivity|]. split; [now constructor | exact Hb]. }
  intros v y Hv R. exact (H _ _ R u v eq_refl Hv).
Qed.
Lemma unfolded_solid x : ~ In 13 x -> forall y, unfolded x y -> y = x.
Proof.
  intros N y H. induction H as [|r x y H IH|x y H IH]; [reflexivity | f_equal; apply IH; intros K; apply N; now right | destruct N; now left].
Qed.
Lemma unfolded_nil y : unfolded [] y -> y = [].
Proof. intros H. inversion H. reflexivity. Qed.

Definition opens (P : texts) : Prop := forall x, P x -> head_ok x /\ forall y, unfolded x y -> P y.
Lemma head_app u v : head_ok u -> head_ok v -> head_ok (u ++ v).
Proof. intros Hu Hv. destruct u as [|r u]; [exact Hv | exact Hu]. Qed.
Lemma opens_cat P Q : opens P -> opens Q -> opens (P ;; Q).
Proof.
  intros HP HQ x (u & v & -> & Hu & Hv). destruct (HP u Hu) as [A1 A2]. destruct (HQ v Hv) as [B1 B2]. split; [now apply head_app|].
  intros y E. apply unfolded_app in E as (u' & v' & -> & E1 & E2); [|exact B1]. exists u', v'. eauto.
Qed.
Lemma opens_either P Q : opens P -> opens Q -> opens (P <|> Q).
Proof. intros HP HQ x [H|H]; [destruct (HP x H) as [A B] | destruct (HQ x H) as [A B]]; (split; [exact A|]); intros y E; [left | right]; eauto. Qed.
Lemma opens_optional P : opens P -> opens (optional P).
Proof. intros HP x [->|H]; [split; [exact I|]; intros y E; apply unfolded_nil in E; now left|]. destruct (HP x H) as [A B]. split; [exact A|]. intros y E. right. eauto. Qed.
Lemma opens_many P : opens P -> opens (many P).
Proof.
  intros HP x H. induction H as [|u v Hu Hv [B1 B2]]; [split; [exact I|]; intros y E; apply unfolded_nil in E; subst; constructor|].
  destruct (HP u Hu) as [A1 A2]. split; [now apply head_app|]. intros y E. apply unfolded_app in E as (u' & v' & -> & E1 & E2); [|exact B1]. constructor; eauto.
Qed.
Lemma opens_solid (P : texts) : (forall x, P x -> ~ In 13 x /\ ~ In 10 x) -> opens P.
Proof.
  intros H x Hx. destruct (H x Hx) as [N1 N2]. split.
  - unfold head_ok. destruct x as [|r x]; [exact I|]. destruct (N.eq_dec r 10) as [->|D]; [destruct N2; now left|].
    repeat match goal with |- match ?p with _ => _ end => destruct p; try exact I; try congruence end.
  - intros y E. apply (unfolded_solid x N1) in E. now subst y.
Qed.
Lemma head_if r x : r <> 10 -> head_ok (r :: x).
Proof. intros D. unfold head_ok. repeat match goal with |- match ?p with _ => _ end => destruct p; try exact I; try congruence end. Qed.
Lemma opens_one (p : rune -> bool) : p 13 = false -> p 10 = false -> opens (one p).
Proof. intros H1 H2. apply opens_solid. intros x (r & -> & Hr). split; intros [E|[]]; congruence. Qed.
Lemma opens_lit s : forallb (fun r => negb (N.eqb r 13) && negb (N.eqb r 10)) (bs s) = true -> opens (lit s).
Proof.
  intros H. apply opens_solid. intros x Hx. unfold lit in Hx. subst x. rewrite forallb_forall in H. split; intros K; specialize (H _ K); discriminate H.
Qed.
Lemma opens_named l : Forall (Forall (fun c => 97 <= c <= 122)) l -> opens (named l).
Proof.
  intros Hl. apply opens_solid. intros x Hx. pose proof (lower_letters _ _ Hx Hl) as F. rewrite Forall_forall in F.
  split; intros K; specialize (F _ K); apply good_letter in F as [F _]; discriminate F.
Qed.
Lemma blanks_no a c : blanks a -> c = 13 \/ c = 10 -> ~ In c a.
Proof. intros H Hc K. unfold blanks in H. rewrite Forall_forall in H. specialize (H c K). destruct Hc as [-> | ->]; discriminate H. Qed.
Lemma blanks_head a : blanks a -> head_ok a.
Proof. intros H. destruct a as [|r a]; [exact I|]. apply head_if. intros ->. destruct (blanks_no _ 10 H (or_intror eq_refl)). now left. Qed.
Lemma opens_fold : opens fold.
Proof.
  intros x [a N H|a b Ha N Hb].
  - split; [now apply blanks_head|].
    intros y E. apply unfolded_solid in E; [|apply (blanks_no a); auto]. subst y. now constructor.
  - split; [apply head_app; [now apply blanks_head | exact I]|].
    intros y E. apply unfolded_app in E as (a' & z & -> & E1 & E); [|exact I]. apply unfolded_solid in E1; [|apply (blanks_no a); auto]. subst a'.
    assert (Z : z = b \/ z = [13; 10] ++ b).
    { inversion E as [|? ? ? K|? ? K]; subst.
      - inversion K as [|? ? ? K2|]; subst. apply unfolded_solid in K2; [|apply (blanks_no b); auto]. subst. now right.
      - apply unfolded_solid in K; [|apply (blanks_no b); auto]. subst. now left. }
    destruct Z as [-> | ->]; [constructor; [destruct a; [exact N | discriminate] | apply Forall_app; auto] | now constructor].
Qed.
Lemma opens_ofold : opens (optional fold).
Proof. apply opens_optional, opens_fold. Qed.
Lemma not_ws r : ws r = false -> r <> 10 /\ r <> 13.
Proof. intros H. split; intros ->; discriminate H. Qed.
Lemma unfolded_cons r v y : r <> 13 -> unfolded (r :: v) y -> exists v', y = r :: v' /\ unfolded v v'.
Proof. intros N H. inversion H; subst; [eauto | congruence]. Qed.
Lemma opens_body : opens comment_body.
Proof.
  intros x H. induction H as [u Hu|u r b Hu Hr Hb [IH1 IH2]|u r b Hu Hr Hb [IH1 IH2]|u c b Hu Hc [IHc1 IHc2] Hb [IHb1 IHb2]].
  - destruct (opens_ofold u Hu) as [A B]. split; [exact A|]. intros y E. constructor. auto.
  - destruct (opens_ofold u Hu) as [A B]. pose proof (not_ws r (comment_char_dark r Hr)) as [R1 R2]. split; [apply head_app; [exact A | now apply head_if]|].
    intros y E. apply unfolded_app in E as (u' & z & -> & E1 & E); [|now apply head_if]. apply unfolded_cons in E as (b' & -> & E2); [|exact R2]. apply (cb_char u' r b'); auto.
  - destruct (opens_ofold u Hu) as [A B]. split; [apply head_app; [exact A | exact I]|].
    intros y E. apply unfolded_app in E as (u' & z & -> & E1 & E); [|exact I]. apply unfolded_cons in E as (z' & -> & E); [|discriminate].
    destruct (N.eq_dec r 13) as [->|D].
    + inversion E as [|? ? ? K|? ? K]; subst; [apply (cb_pair u' 13 y); auto|].
      destruct IH1.
    + apply unfolded_cons in E as (b' & -> & E2); [|exact D]. apply (cb_pair u' r b'); auto.
  - destruct (opens_ofold u Hu) as [A B]. split; [apply head_app; [exact A | exact I]|].
    intros y E. apply unfolded_app in E as (u' & z & -> & E1 & E); [|exact I]. rewrite <- !app_assoc in E. apply unfolded_cons in E as (z' & -> & E); [|discriminate].
    apply unfolded_app in E as (c' & z2 & -> & E2 & E); [|exact I]. apply unfolded_cons in E as (b' & -> & E3); [|discriminate].
    pose proof (cb_nested u' c' b' (B u' E1) (IHc2 c' E2) (IHb2 b' E3)) as X. rewrite <- !app_assoc in X. exact X.
Qed.
Lemma opens_comment : opens comment.
Proof.
  intros x (b & -> & Hb). destruct (opens_body b Hb) as [A B]. split; [exact I|]. intros y E. apply unfolded_cons in E as (z & -> & E); [|discriminate].
  apply unfolded_app in E as (b' & v & -> & E1 & E); [|exact I]. apply unfolded_solid in E; [|cbn; intuition discriminate]. subst v. exists b'. auto.
Qed.
Lemma opens_comments : opens comments.
Proof.
  intros x H. induction H as [u c u' Hu Hc Hu'|u c x Hu Hc Hx [IH1 IH2]].
  - destruct (opens_ofold u Hu) as [A1 A2], (opens_comment c Hc) as [B1 B2], (opens_ofold u' Hu') as [C1 C2]. split; [repeat apply head_app; assumption|].
    intros y E. apply unfolded_app in E as (v & z & -> & E1 & E); [|now apply head_app]. apply unfolded_app in E as (d & w & -> & E2 & E3); [|exact C1]. apply cs_one; auto.
  - destruct (opens_ofold u Hu) as [A1 A2], (opens_comment c Hc) as [B1 B2]. split; [repeat apply head_app; assumption|].
    intros y E. apply unfolded_app in E as (v & z & -> & E1 & E); [|now apply head_app]. apply unfolded_app in E as (d & w & -> & E2 & E3); [|exact IH1]. apply cs_more; auto.
Qed.
Lemma opens_gap : opens ogap.
Proof. apply (opens_optional (fun x => fold x \/ comments x)). apply (opens_either fold comments); [exact opens_fold | exact opens_comments]. Qed.
Lemma opens_quoted : opens quoted_string.
Proof.
  assert (B : forall b t, quoted_body b t -> head_ok b /\ forall y, unfolded b y -> exists t', quoted_body y t').
  { intros b t H. induction H as [u Hu|u r b t Hu Hr Hb [IH1 IH2]|u r b t Hu Hr Hb [IH1 IH2]]; destruct (opens_ofold u Hu) as [A B].
    - split; [exact A|]. intros y E. eexists. constructor. auto.
    - assert (R : r <> 10 /\ r <> 13) by (split; intros ->; discriminate Hr). destruct R as [R1 R2]. split; [apply head_app; [exact A | now apply head_if]|].
      intros y E. apply unfolded_app in E as (u' & z & -> & E1 & E); [|now apply head_if]. apply unfolded_cons in E as (b' & -> & E2); [|exact R2].
      destruct (IH2 b' E2) as [t' H']. eexists. apply (qb_char u' r b' t'); auto.
    - split; [apply head_app; [exact A | exact I]|].
      intros y E. apply unfolded_app in E as (u' & z & -> & E1 & E); [|exact I]. apply unfolded_cons in E as (z' & -> & E); [|discriminate].
      assert (K : exists b', z' = r :: b' /\ unfolded b b').
      { destruct (N.eq_dec r 13) as [->|D]; [inversion E as [|? ? ? K|? ? K]; subst; [eauto | destruct IH1] | now apply unfolded_cons]. }
      destruct K as (b' & -> & E2). destruct (IH2 b' E2) as [t' H']. eexists. apply (qb_pair u' r b' t'); auto. }
  intros x (t & b & -> & Hb). destruct (B b t Hb) as [A1 A2]. split; [exact I|]. intros y E. apply unfolded_cons in E as (z & -> & E); [|discriminate].
  apply unfolded_app in E as (b' & v & -> & E1 & E); [|exact I]. apply unfolded_solid in E; [|cbn; intuition discriminate]. subst v.
  destruct (A2 b' E1) as [t' H']. exists t', b'. auto.
Qed.
Lemma opens_literal : opens literal_body.
Proof.
  intros x H. induction H as [u Hu|u r b Hu Hr Hb [IH1 IH2]]; destruct (opens_ofold u Hu) as [A B].
  - split; [exact A|]. intros y E. constructor. auto.
  - assert (R : r <> 10 /\ r <> 13) by (split; intros ->; discriminate Hr). destruct R as [R1 R2]. split; [apply head_app; [exact A | now apply head_if]|].
    intros y E. apply unfolded_app in E as (u' & z & -> & E1 & E); [|now apply head_if]. apply unfolded_cons in E as (b' & -> & E2); [|exact R2]. apply (lb_char u' r b'); auto.
Qed.
Lemma no_breaks (p : rune -> bool) x : p 13 = false -> p 10 = false -> Forall (fun r => p r = true) x -> ~ In 13 x /\ ~ In 10 x.
Proof. intros H1 H2 H. rewrite Forall_forall in H. split; intros K; specialize (H _ K); congruence. Qed.
Lemma opens_encoded : opens full_encoded_word.
Proof.
  apply opens_solid. intros x (c & e & t & -> & [_ Hc] & [_ He] & [_ Ht]).
  destruct (no_breaks enc_token_char c eq_refl eq_refl Hc), (no_breaks enc_token_char e eq_refl eq_refl He), (no_breaks enc_char t eq_refl eq_refl Ht).
  rewrite !in_app_iff. cbn. intuition discriminate.
Qed.
Lemma opens_atom : opens atom.
Proof. apply opens_solid. intros x [_ H]. exact (no_breaks atext_char x eq_refl eq_refl H). Qed.
Lemma opens_dots : opens dot_atom.
Proof.
  assert (J : forall l, Forall atom l -> ~ In 13 (join (bs ".") l) /\ ~ In 10 (join (bs ".") l)).
  { induction l as [|a [|b l] IH]; intros H; inversion H as [|? ? [_ Ha] Hl]; subst; [cbn; tauto | cbn [join]; exact (no_breaks atext_char a eq_refl eq_refl Ha)|].
    change (join (bs ".") (a :: b :: l)) with (a ++ bs "." ++ join (bs ".") (b :: l)). destruct (no_breaks atext_char a eq_refl eq_refl Ha), (IH Hl). rewrite !in_app_iff. cbn [bs list_ascii_of_string map In]. intuition discriminate. }
  apply opens_solid. intros d (l & _ & H & [->| ->]); destruct (J l H); [auto|]. rewrite !in_app_iff. cbn [bs list_ascii_of_string map In]. intuition discriminate.
Qed.
Ltac opens_step :=
  match goal with
  | |- opens (cat _ _) => apply opens_cat
  | |- opens (either _ _) => apply opens_either
  | |- opens (optional _) => apply opens_optional
  | |- opens (many _) => apply opens_many
  end.
Lemma opens_dates : opens date_texts.
Proof.
  assert (D : opens digit) by (apply opens_one; reflexivity). pose proof opens_gap as G. pose proof opens_fold as F.
  unfold date_texts.
  repeat first [ exact D | exact G | exact F | opens_step
    | apply opens_lit; reflexivity | apply opens_named; first [exact day_names_letters | exact month_names_letters | exact zone_names_letters] ].
Qed.
Lemma opens_lists : opens address_list_texts.
Proof.
  pose proof opens_gap as G. pose proof opens_fold as F. pose proof opens_comment as C. pose proof opens_quoted as Q. pose proof opens_encoded as E. pose proof opens_literal as L.
  pose proof opens_atom as A. pose proof opens_dots as DA.
  assert (T : opens (one atext_char)) by (apply opens_one; reflexivity).
  assert (D : opens digit) by (apply opens_one; reflexivity).
  unfold address_list_texts, one_address, group_texts, mailbox_texts, angle_texts, route_texts, spec_texts, domain_texts, local_texts, word_texts, name_texts, name_start.
  repeat first [ exact G | exact F | exact C | exact Q | exact E | exact A | exact T | exact D | exact DA | exact L | opens_step
    | apply opens_lit; reflexivity ].
Qed.

(** ** Results *)
Lemma strip_unfolded x y : unfolded x y -> ~ In 92 x -> forall n, strip n x = strip n y.
Proof.
  induction 1 as [|r x y H IH|x y H IH]; intros N n; [reflexivity | |].
  - assert (I : forall m, strip m x = strip m y) by (apply IH; intros K; apply N; now right).
    assert (E : (r =? 92) = false) by (apply N.eqb_neq; intros ->; apply N; now left).
    cbn [strip]. destruct n; rewrite ?E, !I; reflexivity.
  - rewrite <- IH by (intros K; apply N; right; now right). destruct n; reflexivity.
Qed.

(** ** Theorems *)
(** Taking line breaks out of an accepted text leaves it accepted. *)
Theorem C80_stays_accepted : forall e s1 s2, s1 <> [] -> s2 <> [] -> unfolded (kept s1) (kept s2) -> lexes e s2 ->
  ((exists t, ParseDateTime e s1 = Ret t None) -> exists t, ParseDateTime e s2 = Ret t None) /\
  ((exists l, ParseAddressList e s1 = Ret l None) -> exists l, ParseAddressList e s2 = Ret l None).
Proof.
  intros e s1 s2 N1 N2 R L. split; intros H.
  - destruct (proj1 (C57_accepted_dates e s1 N1) H) as [D _]. apply (C57_accepted_dates e s2 N2). split; [|exact L]. exact (proj2 (opens_dates _ D) _ R).
  - destruct (proj1 (C56_accepted_address_lists e s1 N1) H) as [D _]. apply (C56_accepted_address_lists e s2 N2). split; [|exact L]. exact (proj2 (opens_lists _ D) _ R).
Qed.
(** A date without backslash gives the same instant. *)
Theorem C80_dates : forall e s1 s2 t, s1 <> [] -> s2 <> [] -> unfolded (kept s1) (kept s2) -> lexes e s2 -> ~ In 92 (kept s1) ->
  ParseDateTime e s1 = Ret t None -> ParseDateTime e s2 = Ret t None.
Proof.
  intros e s1 s2 t N1 N2 R L B H. destruct (proj1 (C80_stays_accepted e s1 s2 N1 N2 R L) (ex_intro _ t H)) as [t2 H2].
  assert (E : strip_text s1 = strip_text s2) by exact (strip_unfolded _ _ R B 0%nat).
  destruct C34_read_from_stripped_text as (_ & _ & C34 & _). now rewrite (C34 e s1 s2 t t2 N1 N2 E H H2).
Qed.

Definition crlf : gostring := [13; 10].
Example C80_met : let s1 := bs "Fri," ++ crlf ++ bs " 21 Nov 1997 (a" ++ crlf ++ bs " b) 09:55 -0600" in let s2 := bs "Fri, 21 Nov 1997 (a b) 09:55 -0600" in
  unfolded (kept s1) (kept s2) /\ lexes env0 s2 /\ ~ In 92 (kept s1) /\
  exists t, ParseDateTime env0 s1 = Ret t None /\ ParseDateTime env0 s2 = Ret t None.
Proof.
  cbv zeta.
  assert (K1 : kept (bs "Fri," ++ crlf ++ bs " 21 Nov 1997 (a" ++ crlf ++ bs " b) 09:55 -0600") = bs "Fri," ++ crlf ++ bs " 21 Nov 1997 (a" ++ crlf ++ bs " b) 09:55 -0600") by (vm_compute; reflexivity).
  assert (K2 : kept (bs "Fri, 21 Nov 1997 (a b) 09:55 -0600") = bs "Fri, 21 Nov 1997 (a b) 09:55 -0600") by (vm_compute; reflexivity).
  rewrite K1, K2. split; [|split; [apply env0_lexes|split]].
  - cbn [bs list_ascii_of_string map app crlf]. repeat first [ apply uf_end | apply uf_drop | apply uf_keep ].
  - vm_compute. intuition discriminate.
  - eexists. split; vm_compute; reflexivity.
Qed.
Example C80_met_list : let s1 := bs "a" ++ crlf ++ bs " <b@c>" in let s2 := bs "a <b@c>" in
  unfolded (kept s1) (kept s2) /\ lexes env0 s2 /\ (exists l, ParseAddressList env0 s1 = Ret l None) /\ (exists l, ParseAddressList env0 s2 = Ret l None).
Proof.
  cbv zeta.
  assert (K1 : kept (bs "a" ++ crlf ++ bs " <b@c>") = bs "a" ++ crlf ++ bs " <b@c>") by (vm_compute; reflexivity).
  assert (K2 : kept (bs "a <b@c>") = bs "a <b@c>") by (vm_compute; reflexivity).
  rewrite K1, K2. split; [|split; [apply env0_lexes|split; eexists; vm_compute; reflexivity]].
  cbn [bs list_ascii_of_string map app crlf]. repeat first [ apply uf_end | apply uf_drop | apply uf_keep ].
Qed.
