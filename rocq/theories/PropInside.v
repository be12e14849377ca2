(** C78: what comments say does not matter. *)
From Coq Require Import String List NArith ZArith Bool Arith Lia.
From Verif Require Import Lexer Grammar Utf8 Strs Mime GoTime Parser Walker Api Spec ParserFacts
  WalkerFacts Static Total Cfws LangFacts LexFacts Utf8Facts First DateSpec Dates DateText AddrSpec Chosen AddrSem CharFacts PropApi PropInv PropDate
  ScanSpec AddrText MboxList TextLang EncText EncConv PropStable DateAccept AcceptText AcceptFacts PropAccept PropApart PropClosed ScanFacts ScanEnc ScanPhase PropScan PropCase.
Import ListNotations.
Local Open Scope N_scope.
Local Open Scope text_scope.

(** ** Specification *)
(** [x] does not begin with white space *)
Definition dark (x : list rune) : Prop := match x with r :: _ => ws r = false | [] => True end.
(** [reworded n x y]: after [n] open parentheses, [y] is [x] with other things said in comments.  A character may be
    replaced by another, one put before or taken from before anything but white space, a blank put before anything but
    white space, and the character after a backslash replaced. *)
Inductive reworded : nat -> list rune -> list rune -> Prop :=
| rw_end n : reworded n [] []
| rw_out r x y : r <> 40 -> reworded 0 x y -> reworded 0 (r :: x) (r :: y)
| rw_open n x y : reworded (S n) x y -> reworded n (40 :: x) (40 :: y)
| rw_close n x y : reworded n x y -> reworded (S n) (41 :: x) (41 :: y)
| rw_pair n a b x y : pair_char b = true -> reworded (S n) x y -> reworded (S n) (92 :: a :: x) (92 :: b :: y)
| rw_same n r x y : dull r -> reworded (S n) x y -> reworded (S n) (r :: x) (r :: y)
| rw_replace n a b x y : comment_char a = true -> comment_char b = true -> reworded (S n) x y -> reworded (S n) (a :: x) (b :: y)
| rw_insert n b x y : comment_char b = true \/ blank_char b = true -> dark x -> reworded (S n) x y -> reworded (S n) x (b :: y)
| rw_delete n a x y : comment_char a = true -> dark x -> reworded (S n) x y -> reworded (S n) (a :: x) y.

(** ** Acceptance *)
Lemma comment_char_dark r : comment_char r = true -> ws r = false.
Proof.
  intros H. destruct (ws r) eqn:W; [|reflexivity]. exfalso. unfold ws in W. apply existsb_exists in W as (c & Hc & E). apply N.eqb_eq in E. subst c.
  cbn [In] in Hc. destruct Hc as [<-|[<-|[<-|[<-|[]]]]]; vm_compute in H; discriminate.
Qed.
Lemma ws_dull r : ws r = true -> dull r.
Proof.
  intros W. unfold ws in W. apply existsb_exists in W as (c & Hc & E). apply N.eqb_eq in E. subst c. cbn [In] in Hc. destruct Hc as [<-|[<-|[<-|[<-|[]]]]]; dull.
Qed.
Lemma blanks_ws a : blanks a -> Forall (fun r => ws r = true) a.
Proof. apply Forall_impl. intros r H. unfold blank_char in H. apply orb_true_iff in H as [H|H]; apply N.eqb_eq in H; subst; reflexivity. Qed.
Lemma fold_ws u : fold u -> Forall (fun r => ws r = true) u.
Proof.
  intros [a N H|a b Ha N Hb]; [now apply blanks_ws|]. repeat (apply Forall_app; split); auto using blanks_ws.
Qed.
Lemma ofold_ws u : optional fold u -> Forall (fun r => ws r = true) u.
Proof. intros [->|H]; [constructor | now apply fold_ws]. Qed.
Lemma fold_more u c : optional fold u -> blank_char c = true -> optional fold (u ++ [c]).
Proof.
  intros H Hc. right. assert (B : blanks [c]) by (repeat constructor; exact Hc). destruct H as [->|[a N Ha|a b Ha N Hb]].
  - constructor; [discriminate | exact B].
  - constructor; [destruct a; discriminate | apply Forall_app; auto].
  - rewrite <- !app_assoc. constructor; [exact Ha | destruct b; discriminate | apply Forall_app; auto].
Qed.
(** white space stays *)
Lemma space_stays u : Forall (fun r => ws r = true) u -> forall n x z, reworded (S n) (u ++ x) z -> exists z', z = u ++ z' /\ reworded (S n) x z'.
Proof.
  induction 1 as [|r u Hr _ IH]; intros n x z H; [exists z; auto|]. cbn [app] in H.
  assert (K : forall z1, z = r :: z1 -> reworded (S n) (u ++ x) z1 -> exists z', z = (r :: u) ++ z' /\ reworded (S n) x z').
  { intros z1 -> H1. destruct (IH _ _ _ H1) as (z' & -> & H'). exists z'. auto. }
  pose proof (ws_dull r Hr) as (D1 & D2 & D3).
  inversion H; subst; try congruence; eauto;
    match goal with
    | C : comment_char r = true |- _ => apply comment_char_dark in C; congruence
    | C : dark _ |- _ => cbn [dark] in C; congruence
    end.
Qed.

Ltac sz := unfold rune in *; repeat (rewrite !app_length in *; cbn [Datatypes.length] in * ); rewrite ?app_length in *; cbn [Datatypes.length] in *; lia.
Lemma body_reworded : forall m,
  (forall n b t z u, (Datatypes.length (b ++ 41%N :: t) + Datatypes.length z <= m)%nat -> comment_body b -> dark (b ++ 41 :: t) -> optional fold u ->
     reworded (S n) (b ++ 41 :: t) z -> exists b' z', z = b' ++ 41 :: z' /\ comment_body (u ++ b') /\ reworded n t z') /\
  (forall n b t z, (Datatypes.length (b ++ 41%N :: t) + Datatypes.length z <= m)%nat -> comment_body b ->
     reworded (S n) (b ++ 41 :: t) z -> exists b' z', z = b' ++ 41 :: z' /\ comment_body b' /\ reworded n t z').
Proof.
  induction m as [|m [IH1 IH2]]; [split; intros; rewrite app_length in *; cbn [Datatypes.length] in *; lia|].
  assert (A : forall n b t z u, (Datatypes.length (b ++ 41%N :: t) + Datatypes.length z <= S m)%nat -> comment_body b -> dark (b ++ 41 :: t) -> optional fold u ->
     reworded (S n) (b ++ 41 :: t) z -> exists b' z', z = b' ++ 41 :: z' /\ comment_body (u ++ b') /\ reworded n t z').
  { intros n b t z u M B D F R.
    assert (INS : forall c y, z = c :: y -> comment_char c = true \/ blank_char c = true -> reworded (S n) (b ++ 41 :: t) y ->
              exists b' z', z = b' ++ 41 :: z' /\ comment_body (u ++ b') /\ reworded n t z').
    { intros c y -> Hc Ry. cbn [Datatypes.length] in M. destruct Hc as [Hc|Hc].
      - destruct (IH1 n b t y [] ltac:(sz) B D (or_introl eq_refl) Ry) as (b' & z' & -> & B' & R').
        exists (c :: b'), z'. split; [reflexivity|]. split; [|exact R']. apply (cb_char u c b' F Hc B').
      - destruct (IH1 n b t y (u ++ [c]) ltac:(sz) B D (fold_more u c F Hc) Ry) as (b' & z' & -> & B' & R').
        exists (c :: b'), z'. split; [reflexivity|]. split; [|exact R']. rewrite <- app_assoc in B'. exact B'. }
    assert (W : forall v x, optional fold v -> dark (v ++ x) -> v = []).
    { intros v x Hv Dv. apply ofold_ws in Hv. destruct Hv as [|r v Hr _]; [reflexivity|]. cbn [app dark] in Dv. congruence. }
    destruct B as [v Hv|v r b Hv Hr Hb|v r b Hv Hr Hb|v c b Hv Hc Hb]; rewrite <- ?app_assoc in *; assert (v = []) as -> by exact (W v _ Hv D); cbn [app] in *.
    - inversion R; subst; try congruence; eauto.
      + exists [], y. split; [reflexivity|]. split; [rewrite app_nil_r; now constructor | assumption].
      + match goal with H : dull 41 |- _ => destruct H as (_ & H & _); congruence end.
      + match goal with H : comment_char 41 = true |- _ => discriminate H end.
      + match goal with H : comment_char 41 = true |- _ => discriminate H end.
    - pose proof (comment_char_dull r Hr) as (D1 & D2 & D3). cbn [Datatypes.length] in M.
      assert (K : forall c y, z = c :: y -> comment_char c = true -> reworded (S n) (b ++ 41 :: t) y -> exists b' z', z = b' ++ 41 :: z' /\ comment_body (u ++ b') /\ reworded n t z').
      { intros c y -> Hc Ry. cbn [Datatypes.length] in M. destruct (IH2 n b t y ltac:(sz) Hb Ry) as (b' & z' & -> & B' & R').
        exists (c :: b'), z'. split; [reflexivity|]. split; [|exact R']. apply (cb_char u c b' F Hc B'). }
      inversion R; subst; try congruence; eauto.
      apply (IH1 n b t z u); auto. sz.
    - inversion R; subst; try congruence; eauto.
      + cbn [Datatypes.length] in M. destruct (IH2 n b t y ltac:(sz) Hb ltac:(eassumption)) as (b' & z' & -> & B' & R').
        eexists (92 :: _ :: b'), z'. split; [reflexivity|]. split; [|exact R']. apply (cb_pair u _ b' F ltac:(eassumption) B').
      + match goal with H : dull 92 |- _ => destruct H as (_ & _ & H); congruence end.
      + match goal with H : comment_char 92 = true |- _ => discriminate H end.
      + match goal with H : comment_char 92 = true |- _ => discriminate H end.
    - change (bs "(" ++ c ++ bs ")" ++ b ++ 41 :: t) with (40 :: c ++ 41 :: (b ++ 41 :: t)) in *. inversion R; subst; try congruence; eauto.
      + cbn [Datatypes.length] in M. destruct (IH2 (S n) c (b ++ 41 :: t) y ltac:(sz) Hc ltac:(eassumption)) as (c' & y' & -> & C' & Ry).
        destruct (IH2 n b t y') as (b' & z' & -> & B' & R'); [sz | exact Hb | exact Ry|].
        exists (40 :: c' ++ 41 :: b'), z'. split; [cbn [app]; now rewrite <- app_assoc|]. split; [|exact R'].
        pose proof (cb_nested u c' b' F C' B') as X. rewrite <- !app_assoc in X. exact X.
      + match goal with H : dull 40 |- _ => destruct H as (H & _); congruence end.
      + match goal with H : comment_char 40 = true |- _ => discriminate H end.
      + match goal with H : comment_char 40 = true |- _ => discriminate H end. }
  split; [exact A|].
  intros n b t z M B R.
  assert (X : exists u b0, b = u ++ b0 /\ optional fold u /\ comment_body b0 /\ dark (b0 ++ 41 :: t)).
  { destruct B as [v Hv|v r b Hv Hr Hb|v r b Hv Hr Hb|v c b Hv Hc Hb].
    - exists v, []. split; [now rewrite app_nil_r|]. split; [exact Hv|]. split; [constructor; now left | reflexivity].
    - exists v, (r :: b). split; [reflexivity|]. split; [exact Hv|]. split; [apply (cb_char [] r b (or_introl eq_refl) Hr Hb) | now apply comment_char_dark].
    - exists v, (92 :: r :: b). split; [reflexivity|]. split; [exact Hv|]. split; [apply (cb_pair [] r b (or_introl eq_refl) Hr Hb) | reflexivity].
    - exists v, ((bs "(" ++ c ++ bs ")") ++ b). split; [reflexivity|]. split; [exact Hv|]. split; [apply (cb_nested [] c b (or_introl eq_refl) Hc Hb) | reflexivity]. }
  destruct X as (u & b0 & -> & Hu & B0 & D). rewrite <- app_assoc in R, M. apply (space_stays u (ofold_ws u Hu)) in R as (z1 & -> & R1).
  destruct (A n b0 t z1 u) as (b' & z' & -> & B' & R'); auto.
  - sz.
  - exists (u ++ b'), z'. split; [now rewrite <- app_assoc|]. auto.
Qed.

Lemma same_text u : ~ In 40 u -> forall x z, reworded 0 (u ++ x) z -> exists z', z = u ++ z' /\ reworded 0 x z'.
Proof.
  induction u as [|r u IH]; intros N x z H; [exists z; auto|]. cbn [app] in H. inversion H; subst.
  - destruct (IH (fun K => N (or_intror K)) _ _ ltac:(eassumption)) as (z' & -> & H'). exists z'. auto.
  - destruct N. now left.
Qed.
Lemma comment_reworded c x z : comment c -> reworded 0 (c ++ x) z -> exists c' z', z = c' ++ z' /\ comment c' /\ reworded 0 x z'.
Proof.
  intros (b & -> & Hb) H. rewrite <- !app_assoc in H. change (bs "(" ++ b ++ bs ")" ++ x) with (40 :: b ++ 41 :: x) in H. inversion H; subst; [congruence|].
  destruct (proj2 (body_reworded _) 0%nat b x y (le_n _) Hb ltac:(eassumption)) as (b' & z' & -> & B' & R'). exists (40 :: b' ++ [41]), z'.
  split; [cbn [app]; now rewrite <- app_assoc|]. split; [exists b'; auto | exact R'].
Qed.
Lemma plain_space u : optional fold u -> ~ In 40 u.
Proof. intros H K. apply ofold_ws in H. rewrite Forall_forall in H. specialize (H 40 K). discriminate H. Qed.

Section STAYS.
Variable ok : rune -> Prop.
Definition stays (P : texts) : Prop :=
  forall x, P x -> Forall ok x -> forall y z, reworded 0 (x ++ y) z -> exists x' z', z = x' ++ z' /\ P x' /\ reworded 0 y z'.
Lemma stays_cat P Q : stays P -> stays Q -> stays (P ;; Q).
Proof.
  intros HP HQ x (u & v & -> & Hu & Hv) K y z R. apply Forall_app in K as [Ku Kv]. rewrite <- app_assoc in R.
  destruct (HP u Hu Ku _ _ R) as (u' & z1 & -> & Hu' & R1). destruct (HQ v Hv Kv _ _ R1) as (v' & z2 & -> & Hv' & R2).
  exists (u' ++ v'), z2. split; [now rewrite <- app_assoc|]. split; [exists u', v'; auto | exact R2].
Qed.
Lemma stays_either P Q : stays P -> stays Q -> stays (P <|> Q).
Proof.
  intros HP HQ x [H|H] K y z R; [destruct (HP x H K y z R) as (x' & z' & E & H' & R') | destruct (HQ x H K y z R) as (x' & z' & E & H' & R')];
    exists x', z'; (split; [exact E|]); (split; [|exact R']); [left | right]; exact H'.
Qed.
Lemma stays_optional P : stays P -> stays (optional P).
Proof.
  intros HP x [->|H] K y z R; [exists [], z; split; [reflexivity|]; split; [now left | exact R]|].
  destruct (HP x H K y z R) as (x' & z' & E & H' & R'). exists x', z'. split; [exact E|]. split; [now right | exact R'].
Qed.
Lemma stays_many P : stays P -> stays (many P).
Proof.
  intros HP x H. induction H as [|u v Hu Hv IH]; intros K y z R; [exists [], z; split; [reflexivity|]; split; [constructor | exact R]|].
  apply Forall_app in K as [Ku Kv]. rewrite <- app_assoc in R. destruct (HP u Hu Ku _ _ R) as (u' & z1 & -> & Hu' & R1). destruct (IH Kv _ _ R1) as (v' & z2 & -> & Hv' & R2).
  exists (u' ++ v'), z2. split; [now rewrite <- app_assoc|]. split; [now constructor | exact R2].
Qed.
Lemma stays_chars (P : texts) : (forall x, P x -> ~ In 40 x) -> stays P.
Proof. intros H x Hx _ y z R. destruct (same_text x (H x Hx) _ _ R) as (z' & -> & R'). exists x, z'. auto. Qed.
Lemma stays_never (P : texts) : (forall x, P x -> ~ Forall ok x) -> stays P.
Proof. intros H x Hx K. destruct (H x Hx K). Qed.
Lemma stays_fold : stays fold.
Proof. apply stays_chars. intros x Hx. apply plain_space. now right. Qed.
Lemma stays_comment : stays comment.
Proof. intros x Hx _ y z R. now apply (comment_reworded x). Qed.
Lemma stays_comments : stays comments.
Proof.
  intros x H _. induction H as [u c u' Hu Hc Hu'|u c x Hu Hc Hx IH]; intros y z R; rewrite <- !app_assoc in R;
    destruct (same_text u (plain_space u Hu) _ _ R) as (z1 & -> & R1); destruct (comment_reworded c _ _ Hc R1) as (c' & z2 & -> & Hc' & R2).
  - destruct (same_text u' (plain_space u' Hu') _ _ R2) as (z3 & -> & R3). exists (u ++ c' ++ u'), z3. split; [now rewrite <- !app_assoc|]. split; [now constructor | exact R3].
  - destruct (IH _ _ R2) as (x' & z3 & -> & Hx' & R3). exists (u ++ c' ++ x'), z3. split; [now rewrite <- !app_assoc|]. split; [now constructor | exact R3].
Qed.
Lemma stays_gap : stays ogap.
Proof.
  apply (stays_optional (fun x => fold x \/ comments x)). apply (stays_either fold comments); [exact stays_fold | exact stays_comments].
Qed.
Lemma stays_one (p : rune -> bool) : p 40 = false -> stays (one p).
Proof. intros H1. apply stays_chars. intros x (r & -> & H) [E|[]]. congruence. Qed.
Lemma stays_lit s : forallb (fun r => negb (N.eqb r 40)) (bs s) = true -> stays (lit s).
Proof.
  intros H. apply stays_chars. intros x Hx Hr. unfold lit in Hx. subst x. rewrite forallb_forall in H. specialize (H 40 Hr). discriminate H.
Qed.
Lemma stays_named l : Forall (Forall (fun c => 97 <= c <= 122)) l -> stays (named l).
Proof.
  intros Hl. apply stays_chars. intros x Hx Hr. pose proof (lower_letters _ _ Hx Hl) as F. rewrite Forall_forall in F. specialize (F 40 Hr). apply good_letter in F as [F _]. discriminate F.
Qed.
End STAYS.

Ltac stays_step :=
  match goal with
  | |- stays _ (cat _ _) => apply stays_cat
  | |- stays _ (either _ _) => apply stays_either
  | |- stays _ (optional _) => apply stays_optional
  | |- stays _ (many _) => apply stays_many
  end.
Lemma stays_dates : stays (fun _ => True) date_texts.
Proof.
  assert (D : stays (fun _ => True) digit) by (apply stays_one; reflexivity).
  pose proof (stays_gap (fun _ => True)) as G. pose proof (stays_fold (fun _ => True)) as F.
  unfold date_texts.
  repeat first [ exact D | exact G | exact F | stays_step
    | apply stays_lit; reflexivity | apply stays_named; first [exact day_names_letters | exact month_names_letters | exact zone_names_letters] ].
Qed.
Lemma not_simple_stays (P : texts) c : In c [34; 91; 61] -> (forall x, P x -> In c x) -> stays simple P.
Proof. intros Hc H. apply stays_never. intros x Hx K. rewrite Forall_forall in K. exact (K c (H x Hx) Hc). Qed.
Lemma stays_lists : stays simple address_list_texts.
Proof.
  pose proof (stays_gap simple) as G. pose proof (stays_fold simple) as F. pose proof (stays_comment simple) as C.
  assert (Q : stays simple quoted_string) by (apply (not_simple_stays _ 34); [cbn; auto|]; intros x (t & b & -> & _); cbn; auto).
  assert (E : stays simple full_encoded_word) by (apply (not_simple_stays _ 61); [cbn; auto|]; intros x (c & e & t & -> & _); cbn; auto).
  assert (A : stays simple atom) by (apply stays_chars; intros x [_ H] Hr; rewrite Forall_forall in H; destruct (atext_level 40 (H 40 Hr)); congruence).
  assert (T : stays simple (one atext_char)) by (apply stays_one; reflexivity).
  assert (D : stays simple digit) by (apply stays_one; reflexivity).
  assert (DA : stays simple dot_atom) by (apply stays_chars; intros x Hx Hr; destruct (dots_level x Hx 40 Hr); congruence).
  assert (L : stays simple (lit "[" ;; literal_body ;; lit "]")) by (apply (not_simple_stays _ 91); [cbn; auto|]; intros x (u & v & -> & -> & _); cbn; auto).
  unfold address_list_texts, one_address, group_texts, mailbox_texts, angle_texts, route_texts, spec_texts, domain_texts, local_texts, word_texts, name_texts, name_start.
  repeat first [ exact G | exact F | exact C | exact Q | exact E | exact A | exact T | exact D | exact DA | exact L | stays_step
    | apply stays_lit; reflexivity ].
Qed.
Lemma reworded_nil z : reworded 0 [] z -> z = [].
Proof. intros H. inversion H. reflexivity. Qed.
Lemma stays_whole ok P x y : stays ok P -> P x -> Forall ok x -> reworded 0 x y -> P y.
Proof.
  intros S Hx K R. rewrite <- (app_nil_r x) in R. destruct (S x Hx K _ _ R) as (x' & z' & -> & H' & R'). apply reworded_nil in R'. subst z'. now rewrite app_nil_r.
Qed.

(** ** Results *)
Lemma insert_dull b : comment_char b = true \/ blank_char b = true -> dull b.
Proof. intros [H|H]; [now apply comment_char_dull | now apply blank_dull]. Qed.
Lemma strip_reworded : forall n x y, reworded n x y -> strip n x = strip n y.
Proof.
  assert (IN : forall n r x, dull r -> strip (S n) (r :: x) = strip (S n) x).
  { intros k r z (H1 & H2 & H3). apply N.eqb_neq in H1, H2, H3. cbn [strip]. now rewrite H1, H2, H3. }
  intros n0 x0 y0 H. induction H; rewrite ?IN by auto using comment_char_dull, insert_dull; auto.
  - cbn [strip]. rewrite IHreworded. destruct (r =? 40) eqn:E; [apply N.eqb_eq in E; congruence | reflexivity].
  - destruct n; exact IHreworded.
Qed.

Definition at_depth (a : bool) (n : nat) : mode := match n with O => MN a | S k => MC a k end.
Lemma run_reworded : forall n x y, reworded n x y -> Forall simple x -> Forall simple y -> forall a, snd (run (at_depth a n) x) = snd (run (at_depth a n) y).
Proof.
  assert (RUN : forall m r x, snd (run m (r :: x)) = snd (step m r) ++ snd (run (fst (step m r)) x)).
  { intros m r x. cbn [run]. destruct (step m r) as [m1 e1]. cbn [fst snd]. destruct (run m1 x). reflexivity. }
  assert (IN : forall n a r x, dull r -> snd (run (at_depth a (S n)) (r :: x)) = snd (run (at_depth a (S n)) x)).
  { intros n' a r z (H1 & H2 & H3). apply N.eqb_neq in H1, H2, H3. rewrite RUN. cbn [at_depth step]. rewrite H1, H2, H3. reflexivity. }
  intros n0 x0 y0 H. induction H; intros Sx Sy a'; rewrite ?IN by auto using comment_char_dull, insert_dull;
    repeat match goal with H : Forall simple (_ :: _) |- _ => inversion H; clear H; subst end; auto.
  - rewrite !RUN. f_equal.
    assert (X : exists b, fst (step (MN a') r) = MN b).
    { assert (S1 : simple r) by assumption. unfold simple in S1. cbn [In] in S1.
      cbn [step]. destruct (ws r); [eexists; reflexivity|]. destruct (N.eqb_spec r 40); [congruence|]. destruct (N.eqb_spec r 34); [subst; tauto|]. destruct (N.eqb_spec r 91); [subst; tauto|].
      repeat match goal with |- context [if ?b then _ else _] => destruct b; [eexists; reflexivity|] end. eexists; reflexivity. }
    change (at_depth a' 0) with (MN a'). destruct X as [b ->]. apply (IHreworded ltac:(assumption) ltac:(assumption) b).
  - rewrite !RUN. assert (X : step (at_depth a' n) 40 = (at_depth a' (S n), [])) by (destruct n; reflexivity). rewrite X. cbn [fst snd app]. auto.
  - rewrite !RUN. assert (X : exists e, step (at_depth a' (S n)) 41 = (at_depth a' n, e)) by (destruct n; eexists; reflexivity). destruct X as [e X]. rewrite X. cbn [fst snd]. f_equal. auto.
  - rewrite !(RUN _ 92). change (step (at_depth a' (S n)) 92) with (MCE a' n, @nil emit). cbn [fst snd app]. rewrite !RUN. change (step (MCE a' n) a) with (at_depth a' (S n), @nil emit).
    change (step (MCE a' n) b) with (at_depth a' (S n), @nil emit). cbn [fst snd app]. auto.
Qed.

(** ** Theorems *)
(** An accepted date stays accepted, with the same instant, when other things are said in its comments. *)
Theorem C78_dates : forall e s1 s2 t, s1 <> [] -> s2 <> [] -> reworded 0 (kept s1) (kept s2) -> lexes e s2 ->
  ParseDateTime e s1 = Ret t None -> ParseDateTime e s2 = Ret t None.
Proof.
  intros e s1 s2 t N1 N2 R L H. destruct (proj1 (C57_accepted_dates e s1 N1) (ex_intro _ t H)) as [D _].
  assert (D2 : date_texts (kept s2)) by (apply (stays_whole (fun _ => True) _ _ _ stays_dates D); [apply Forall_forall; auto | exact R]).
  destruct (proj2 (C57_accepted_dates e s2 N2) (conj D2 L)) as [t2 H2].
  assert (E : strip_text s1 = strip_text s2) by exact (strip_reworded _ _ _ R).
  destruct C34_read_from_stripped_text as (_ & _ & C34 & _). now rewrite (C34 e s1 s2 t t2 N1 N2 E H H2).
Qed.

(** The same holds of address lists without quoted strings, literals and encoded words: they stay accepted, ... *)
Theorem C78_lists_stay : forall e s1 s2, s1 <> [] -> s2 <> [] -> reworded 0 (kept s1) (kept s2) -> lexes e s2 -> Forall simple (kept s1) ->
  (exists l, ParseAddressList e s1 = Ret l None) -> exists l, ParseAddressList e s2 = Ret l None.
Proof.
  intros e s1 s2 N1 N2 R L S H. destruct (proj1 (C56_accepted_address_lists e s1 N1) H) as [D _].
  apply (C56_accepted_address_lists e s2 N2). split; [|exact L]. exact (stays_whole simple _ _ _ stays_lists D S R).
Qed.

Lemma simple_plain x : Forall simple x -> ~ In 34 x /\ intro x = false.
Proof.
  intros S. split; [intros K; rewrite Forall_forall in S; apply (S 34 K); cbn; auto|].
  induction S as [|r x Hr S IH]; [reflexivity|]. cbn [intro]. destruct x as [|r2 x]; [reflexivity|]. rewrite IH, orb_false_r.
  destruct (N.eqb_spec r 61) as [->|]; [destruct Hr; cbn; auto | reflexivity].
Qed.
(** ... with the same addresses, if what is said in the comments now uses none of the characters for these either. *)
Theorem C78_lists : forall e s1 s2 l, s1 <> [] -> s2 <> [] -> reworded 0 (kept s1) (kept s2) -> lexes e s2 ->
  Forall simple (kept s1) -> Forall simple (kept s2) -> ParseAddressList e s1 = Ret l None ->
  exists l2, ParseAddressList e s2 = Ret l2 None /\ elems l2 = elems l.
Proof.
  intros e s1 s2 l N1 N2 R L S1 S2 H. destruct (C78_lists_stay e s1 s2 N1 N2 R L S1 (ex_intro _ l H)) as [l2 H2]. exists l2. split; [exact H2|].
  destruct (simple_plain _ S1) as [Q1 I1]. destruct (simple_plain _ S2) as [Q2 I2].
  rewrite (C47_without_encoded_words e s1 l H (or_introl Q1) I1), (C47_without_encoded_words e s2 l2 H2 (or_introl Q2) I2).
  unfold addresses_of, scan. f_equal. symmetry. exact (run_reworded 0 _ _ R S1 S2 false).
Qed.

Ltac rw := repeat first [ apply rw_end | apply rw_out; [discriminate|] | apply rw_open | apply rw_close ].
Example C78_met : let s1 := bs "a (old) <b@c>" in let s2 := bs "a (new text) <b@c>" in
  reworded 0 (kept s1) (kept s2) /\ lexes env0 s2 /\ Forall simple (kept s1) /\ Forall simple (kept s2) /\
  ParseAddressList env0 s1 = Ret (Some [mkAddr (bs "a") (bs "b@c")]) None /\ ParseAddressList env0 s2 = Ret (Some [mkAddr (bs "a") (bs "b@c")]) None.
Proof.
  cbv zeta.
  assert (K1 : kept (bs "a (old) <b@c>") = bs "a (old) <b@c>") by (vm_compute; reflexivity).
  assert (K2 : kept (bs "a (new text) <b@c>") = bs "a (new text) <b@c>") by (vm_compute; reflexivity).
  rewrite K1, K2. split; [|split; [apply env0_lexes|split; [|split; [|split; vm_compute; reflexivity]]]].
  - cbn [bs list_ascii_of_string map]. rw.
    do 3 (apply rw_replace; [reflexivity | reflexivity|]).
    apply rw_insert; [right; reflexivity | reflexivity|]. do 4 (apply rw_insert; [left; reflexivity | reflexivity|]). rw.
  - repeat constructor; vm_compute; intuition discriminate.
  - repeat constructor; vm_compute; intuition discriminate.
Qed.

(** In quoted strings parentheses open no comments, so the condition is needed. *)
Example C78_quoted_differ : let s1 := bs """(a)"" <b@c>" in let s2 := bs """(d)"" <b@c>" in
  reworded 0 (kept s1) (kept s2) /\ exists l1 l2, ParseAddressList env0 s1 = Ret l1 None /\ ParseAddressList env0 s2 = Ret l2 None /\ l1 <> l2.
Proof.
  cbv zeta.
  assert (K1 : kept (bs """(a)"" <b@c>") = bs """(a)"" <b@c>") by (vm_compute; reflexivity).
  assert (K2 : kept (bs """(d)"" <b@c>") = bs """(d)"" <b@c>") by (vm_compute; reflexivity).
  rewrite K1, K2. split.
  - cbn [bs list_ascii_of_string map]. rw. apply rw_replace; [reflexivity | reflexivity|]. rw.
  - do 2 eexists. split; [vm_compute; reflexivity|]. split; [vm_compute; reflexivity|]. discriminate.
Qed.
