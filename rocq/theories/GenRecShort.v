(** What a run with recovery asks: only about tokens of the input. *)
From Coq Require Import List NArith ZArith Bool Arith Lia FMapPositive.
From Verif Require Import Lexer Grammar Parser Spec ParserFacts Static Cfws First GenSyntax GenAtn GenCode GenRun GenShape GenNet GenCheck GenFacts GenWit GenRecover.
Import ListNotations.

(** [rsmall l P p]: whatever replies it gets, [p] asks for predictions only before at most [l] tokens, and its
    outcome has [P]. *)
Fixpoint rsmall (l : nat) (P : routcome -> Prop) (p : rprog) : Prop :=
  match p with
  | REnd o => P o
  | RAsk d st w k => length w <= l /\ forall o, rsmall l P (k o)
  | RSync n t k => forall r, rsmall l P (k r)
  | RInline n t k => forall r, rsmall l P (k r)
  | RSkip n t k => forall i, rsmall l P (k i)
  end.

Lemma rsmall_bind l (P Q : routcome -> Prop) f : forall p, rsmall l Q p -> (forall o, Q o -> rsmall l P (f o)) -> rsmall l P (rbind p f).
Proof.
  intros p H Hf. induction p as [o|d st w k IH|n t k IH|n t k IH|n t k IH]; cbn [rsmall rbind] in *; auto.
  destruct H as [H0 H]. auto.
Qed.

Lemma rsmall_mono l (P Q : routcome -> Prop) : (forall o, P o -> Q o) -> forall p, rsmall l P p -> rsmall l Q p.
Proof.
  intros H. induction p as [o|d st w k IH|n t k IH|n t k IH|n t k IH]; cbn [rsmall]; auto. intros [H0 H1]. auto.
Qed.

Lemma rsmall_then l (P : routcome -> Prop) p k : treeless P -> rsmall l P p ->
  (forall f c m, P (RDone f c m) -> rsmall l P (k c m)) -> rsmall l P (rthen p k).
Proof.
  intros T H H1. unfold rthen. eapply rsmall_bind; [exact H|]. intros [f c m|c m|] Ho; [|exact Ho | exact Ho].
  eapply rsmall_bind; [exact (H1 f c m Ho)|]. intros o Hp. cbn [rsmall]. apply treeless_prepend; assumption.
Qed.

Definition shorter (l : nat) (m : mem) : Prop := length (ws m) <= l.

Lemma short_eat l m : shorter l m -> shorter l (eat m).
Proof. unfold shorter, eat, put, consume. cbn [ws]. destruct (ws m) as [|x w]; [auto|]. destruct (N.eqb (tt x) T_EOF); cbn [length]; lia. Qed.
Lemma short_report l m : shorter l m -> shorter l (report m). Proof. unfold report, shorter. destruct (mode m); auto. Qed.
Lemma short_skip l k : forall m, shorter l m -> shorter l (skip k m).
Proof. induction k as [|k IH]; intros m H; [exact H|]. apply IH. apply short_eat. exact H. Qed.
Lemma short_recover l c k m : shorter l m -> shorter l (recover c k m).
Proof.
  intros H. unfold recover. apply short_skip. unfold shorter. cbn [ws].
  destruct (match lix m with Some i => _ | None => false end); [apply short_eat; exact H | exact H].
Qed.

Definition short_post (l : nat) (o : routcome) : Prop := match o with RDone _ _ m | RRaise _ m => shorter l m | RFuel => True end.
Lemma treeless_short l : treeless (short_post l). Proof. intros f g c m H. exact H. Qed.

Lemma rrun_small l n : forall cs cur st m, shorter l m -> rsmall l (short_post l) (rrun n cs cur st m).
Proof.
  induction n as [|n IH]; intros cs cur st m Hm; [exact I|].
  destruct cs as [|s cs]; [exact Hm|].
  assert (Then : forall p k, rsmall l (short_post l) p -> (forall c v, shorter l v -> rsmall l (short_post l) (k c v)) -> rsmall l (short_post l) (rthen p k)).
  { intros p k Hp Hk. apply rsmall_then; [apply treeless_short | exact Hp | intros f c v; apply Hk]. }
  assert (Leaf1 : forall x w', ws m = x :: w' -> rsmall l (short_post l) (rthen (REnd (RDone [Leaf x] cur (matched (put m w')))) (fun c v => rrun n cs c st v))).
  { intros x w' Ew. apply Then; [|intros c v; apply IH]. cbn [rsmall short_post]. unfold shorter in *. rewrite Ew in Hm. cbn [ws matched put length] in *. lia. }
  assert (In0 : rsmall l (short_post l) (inline cur m (fun m' => rrun n cs cur st m'))).
  { unfold inline. cbn [rsmall]. intros [| |]; [apply IH | apply IH; apply short_report; exact Hm | exact Hm].
    apply short_eat. change (shorter l (eat (report m))). apply short_eat, short_report, Hm. }
  cbn [rrun]. destruct s as [q| |t|c|r|c b|c b|c b|bs|d bs|d b t|d b t].
  - apply IH. exact Hm.
  - destruct (mode m); [apply IH; exact Hm|]. cbn [rsmall]. intros [| |k|]; [apply IH; exact Hm | apply IH | apply IH | exact Hm].
    + change (shorter l (eat (report m))). apply short_eat, short_report, Hm.
    + apply short_skip, short_report, Hm.
  - destruct (ws m) as [|x w'] eqn:Ew; [exact In0|]. destruct (N.eqb (tt x) t); [|exact In0]. apply Leaf1. reflexivity.
  - destruct (ws m) as [|x w'] eqn:Ew; [exact In0|]. destruct (eval c (tt x)); [|exact In0]. apply Leaf1. reflexivity.
  - apply Then; [|intros; apply IH; assumption]. eapply rsmall_bind; [apply IH; exact Hm|].
    intros [f c v|c v|]; cbn [catch rsmall short_post]; [auto | | auto]. intros H i. apply short_recover, short_report, H.
  - destruct (eval c (la (ws m))); [|apply IH; exact Hm]. apply Then; intros; apply IH; assumption.
  - destruct (eval c (la (ws m))); [|apply IH; exact Hm]. apply Then; intros; apply IH; assumption.
  - apply Then; [apply IH; exact Hm|]. intros c1 v Hv. destruct (eval c (la (ws v))); apply IH; exact Hv.
  - destruct (pick_case (la (ws m)) bs) as [b|]; [|exact Hm]. apply Then; intros; apply IH; assumption.
  - cbn [rsmall]. split; [exact Hm|]. intros [[|j]|]; [apply IH; exact Hm | | exact Hm].
    destruct (nth_error bs j) as [b|]; [|apply IH; exact Hm]. apply Then; intros; apply IH; assumption.
  - cbn [rsmall]. split; [exact Hm|].
    assert (T3 : forall c u, shorter l u -> rsmall l (short_post l) (rthen (rrun n t c st u) (fun c2 u => rrun n (SWhilePredict d b t :: cs) c2 st u))).
    { intros c u Hu. apply Then; intros; apply IH; assumption. }
    intros [[|[|[|j]]]|]; [apply IH; exact Hm | | apply IH; exact Hm | apply T3; exact Hm | exact Hm].
    apply Then; [apply IH; exact Hm|]. intros c1 v Hv. apply T3. exact Hv.
  - apply Then; [apply IH; exact Hm|]. intros c1 v Hv. apply Then; [apply IH; exact Hv|]. intros c2 u Hu. cbn [rsmall]. split; [exact Hu|].
    intros [[|[|[|j]]]|]; [apply IH; exact Hu | apply IH; exact Hu | apply IH; exact Hu | exact Hu | exact Hu].
Qed.

Lemma rstart_small n r w : rsmall (length w) (fun _ => True) (rstart n r w).
Proof.
  unfold rstart. eapply rsmall_bind; [apply (rrun_small (length w)); apply le_n|].
  intros [f c v|c v|]; cbn [catch rsmall]; auto.
Qed.
