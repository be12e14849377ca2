(** Trees that are part of a selected tree: what the choice of the first viable alternative says
    about a subtree on its own. *)
From Coq Require Import List NArith ZArith Bool Arith Lia.
From Verif Require Import Lexer Grammar Parser Spec ParserFacts WalkerFacts Static.
Import ListNotations.

(** [f] is what is selected for [g] in some context. *)
Definition chosen (g : gexp) (f : list tree) : Prop :=
  exists (V : word -> Prop) (w' : word), V w' /\ sel g V (yields f ++ w') f w'.

Lemma chosen_i g V w f w' : sel g V w f w' -> V w' -> chosen g f.
Proof. intros S HV. exists V, w'. split; [exact HV|]. pose proof (sel_sound _ _ _ _ _ S) as [_ E]. now rewrite <- E. Qed.

Lemma chosen_derives g f : chosen g f -> derives g f.
Proof. intros (V & w' & HV & S). now apply sel_sound in S. Qed.
Global Hint Resolve chosen_derives : core.

Lemma chosen_nt r f : chosen (Nt r) f -> exists ch, f = [Node r ch] /\ chosen (body r) ch.
Proof.
  intros (V & w' & HV & S). inversion S; subst. eexists. split; [reflexivity|]. eapply chosen_i; eauto.
Qed.

Lemma chosen_cls ts f : chosen (Cls ts) f -> exists t, f = [Leaf t] /\ In (tt t) ts.
Proof. intros H. apply chosen_derives in H. now apply derives_cls. Qed.

Lemma chosen_seq a b f : chosen (Seq a b) f -> exists f1 f2, f = f1 ++ f2 /\ chosen a f1 /\ chosen b f2.
Proof.
  intros (V & w' & HV & S). inversion S; subst. exists f1, f2. split; [reflexivity|]. split.
  - eapply chosen_i; [eassumption|]. eapply sel_viable; eassumption.
  - eapply chosen_i; eassumption.
Qed.

Lemma chosen_alt a b f : chosen (Alt a b) f -> chosen a f \/ (chosen b f /\ ~ lang a (yields f)).
Proof.
  intros (V & w' & HV & S). inversion S; subst.
  - left. eapply chosen_i; eassumption.
  - right. split; [eapply chosen_i; eassumption|]. intros HL.
    match goal with H : ~ viable _ _ _ |- _ => apply H end. exists (yields f), w'. auto.
Qed.

Lemma chosen_opt a f : chosen (Opt a) f -> chosen a f \/ f = [].
Proof.
  intros H. apply chosen_alt in H as [H|[H _]]; [now left|]. right. apply chosen_derives in H. now apply derives_eps.
Qed.

Lemma chosen_star a f : chosen (Star a) f -> exists fs, f = concat fs /\ Forall (chosen a) fs.
Proof.
  intros (V & w' & HV & S). remember (Star a) as g eqn:E. revert E HV. induction S; intros E HV; try discriminate.
  - injection E as ->. destruct (IHS2 eq_refl HV) as [fs [-> Hfs]]. exists (f1 :: fs). split; [reflexivity|].
    constructor; [|assumption]. eapply chosen_i; [exact S1|]. eapply sel_viable; eassumption.
  - exists []. split; [reflexivity | constructor].
Qed.

Lemma chosen_plus a f : chosen (Plus a) f -> exists f1 fs, f = f1 ++ concat fs /\ chosen a f1 /\ Forall (chosen a) fs.
Proof.
  intros H. apply chosen_seq in H as [f1 [f2 [-> [H1 H2]]]]. apply chosen_star in H2 as [fs [-> Hfs]]. eauto.
Qed.

(** A loop is left only where it cannot be continued. *)
Lemma star_stops a V w f w' : sel (Star a) V w f w' -> ~ viable a (viable (Star a) V) w'.
Proof. intros S. remember (Star a) as g eqn:E. revert E. induction S; intros E; try discriminate; injection E as ->; auto. Qed.

Lemma plus_stops a V w f w' : sel (Plus a) V w f w' -> ~ viable a (viable (Star a) V) w'.
Proof. intros S. inversion S; subst. eapply star_stops; eassumption. Qed.

(** The tree of a whole input. *)
Lemma selected_chosen r w ch : selected r w (Node r ch) -> chosen (body r) ch.
Proof. intros S. inversion S; subst. eapply chosen_i; [eassumption | reflexivity]. Qed.
