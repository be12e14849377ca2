(** What a run with recovery asks: the runtime is asked for a prediction only before a token (the last one
    is the end-of-file token). *)
From Coq Require Import List NArith ZArith Bool Arith Lia FMapPositive.
From Verif Require Import Lexer Grammar Parser Spec ParserFacts Static Cfws First GenSyntax GenAtn GenCode GenRun GenShape GenNet GenCheck GenFacts GenWit GenRecover.
Import ListNotations.

(** [asked P p]: whatever replies it gets, [p] asks for predictions only before a token, and its outcome has [P]. *)
Fixpoint asked (P : routcome -> Prop) (p : rprog) : Prop :=
  match p with
  | REnd o => P o
  | RAsk d st w k => w <> [] /\ forall o, asked P (k o)
  | RSync n t k => forall r, asked P (k r)
  | RInline n t k => forall r, asked P (k r)
  | RSkip n t k => forall i, asked P (k i)
  end.

Lemma asked_bind (P Q : routcome -> Prop) f : forall p, asked Q p -> (forall o, Q o -> asked P (f o)) -> asked P (rbind p f).
Proof.
  intros p H Hf. induction p as [o|d st w k IH|n t k IH|n t k IH|n t k IH]; cbn [asked rbind] in *; auto.
  destruct H as [H0 H]. auto.
Qed.

Lemma asked_mono (P Q : routcome -> Prop) : (forall o, P o -> Q o) -> forall p, asked P p -> asked Q p.
Proof.
  intros H. induction p as [o|d st w k IH|n t k IH|n t k IH|n t k IH]; cbn [asked]; auto. intros [H0 H1]. auto.
Qed.

Lemma asked_then (P Q : routcome -> Prop) p k : treeless P -> asked Q p ->
  (forall f c m, Q (RDone f c m) -> asked P (k c m)) ->
  (forall c m, Q (RRaise c m) -> P (RRaise c m)) -> (Q RFuel -> P RFuel) -> asked P (rthen p k).
Proof.
  intros T H H1 H2 H3. unfold rthen. eapply asked_bind; [exact H|]. intros [f c m|c m|] Ho; [|apply H2; exact Ho | apply H3; exact Ho].
  eapply asked_bind; [exact (H1 f c m Ho)|]. intros o Hp. cbn [asked]. apply treeless_prepend; assumption.
Qed.

(** The stream ends with the end-of-file token. *)
Fixpoint tail_eof (w : word) : Prop := match w with [] => False | x :: w' => match w' with [] => tt x = T_EOF | _ :: _ => tail_eof w' end end.

Lemma tail_eof_cons x w : tail_eof (x :: w) -> tt x <> T_EOF -> tail_eof w.
Proof. destruct w; [intros H N; contradiction | auto]. Qed.

Lemma tail_eof_consume w : tail_eof w -> tail_eof (consume w).
Proof. destruct w as [|x w]; [auto|]. cbn [consume]. destruct (N.eqb_spec (tt x) T_EOF); [auto|]. intros H. apply (tail_eof_cons x); assumption. Qed.

Definition at_end (m : mem) : Prop := tail_eof (ws m).

Lemma end_eat m : at_end m -> at_end (eat m). Proof. apply tail_eof_consume. Qed.
Lemma end_report m : at_end m -> at_end (report m). Proof. unfold report, at_end. destruct (mode m); auto. Qed.
Lemma end_matched m : at_end m -> at_end (matched m). Proof. auto. Qed.
Lemma end_skip k : forall m, at_end m -> at_end (skip k m).
Proof. induction k as [|k IH]; intros m H; [exact H|]. apply IH. apply end_eat. exact H. Qed.
Lemma end_recover c k m : at_end m -> at_end (recover c k m).
Proof.
  intros H. unfold recover. apply end_skip. unfold at_end. cbn [ws].
  destruct (match lix m with Some i => _ | None => false end); [apply end_eat; exact H | exact H].
Qed.

(** Only the last statement of a start rule matches the end-of-file token. *)
Fixpoint ef1 (last : bool) (s : stmt) : bool :=
  let ef := fix ef (last : bool) (l : list stmt) : bool :=
    match l with [] => true | s :: l' => match l' with [] => ef1 last s | _ :: _ => ef1 false s && ef last l' end end in
  match s with
  | SState _ | SSync => true
  | SMatch t => last || negb (N.eqb t T_EOF)
  | SMatchSet c => negb (eval c T_EOF)
  | SCall r => negb (rule_beq r R_addressList) && negb (rule_beq r R_dateTime)
  | SIfLa _ b | SWhileLa _ b | SDoLa _ b => ef false b
  | SSwitchLa bs => forallb (fun x => ef false (snd x)) bs
  | SPredict _ bs => forallb (ef last) bs
  | SWhilePredict _ b t | SDoPredict _ b t => ef false b && ef false t
  end.
Definition ef : bool -> list stmt -> bool :=
  fix ef (last : bool) (l : list stmt) : bool :=
    match l with [] => true | s :: l' => match l' with [] => ef1 last s | _ :: _ => ef1 false s && ef last l' end end.

Definition starting (r : rule) : bool := rule_beq r R_addressList || rule_beq r R_dateTime.

Lemma code_ef_all : forallb (fun r => ef (starting r) (code r)) all_rules = true.
Proof. vm_compute. reflexivity. Qed.

Lemma code_ef r : ef (starting r) (code r) = true.
Proof. pose proof code_ef_all as H. rewrite forallb_forall in H. apply H. apply rule_in. Qed.

Definition post (last : bool) (o : routcome) : Prop :=
  match o with RDone _ _ m | RRaise _ m => last = false -> at_end m | RFuel => True end.
Lemma treeless_post b : treeless (post b). Proof. intros f g c m H. exact H. Qed.

Lemma post_false last o : post false o -> post last o.
Proof. destruct o; cbn [post]; auto. Qed.

Lemma asked_post last p : asked (post false) p -> asked (post last) p.
Proof. apply asked_mono. intros o. apply post_false. Qed.

Lemma catch_asked r cur o : post false o -> asked (post false) (catch r cur o).
Proof.
  destruct o as [f c m|c m|]; cbn [catch post asked]; [auto | | auto]. intros H i _. apply end_recover, end_report. auto.
Qed.

Lemma inline_asked last cur m go : at_end m -> (forall v, at_end v -> asked (post last) (go v)) -> asked (post last) (inline cur m go).
Proof.
  intros H G. unfold inline. cbn [asked]. intros [| |].
  - apply G. apply end_eat, end_matched, end_eat, end_report, H.
  - apply G. apply end_report, H.
  - intros _. exact H.
Qed.

Lemma eval_not c t : negb (eval c T_EOF) = true -> eval c t = true -> t <> T_EOF.
Proof. intros H E ->. rewrite E in H. discriminate. Qed.

Definition here (last : bool) (l : list stmt) : bool := match l with [] => last | _ :: _ => false end.

Lemma ef_cons last s l : ef last (s :: l) = true -> ef1 (here last l) s = true /\ ef last l = true.
Proof. destruct l as [|s' l]; cbn [ef here]; [auto|]. intros H. apply andb_true_iff in H. exact H. Qed.

Lemma rrun_asked n : forall last cs cur st m, ef last cs = true -> at_end m -> asked (post last) (rrun n cs cur st m).
Proof.
  induction n as [|n IH]; intros last cs cur st m He Hm; [exact I|].
  destruct cs as [|s cs]; [intros _; exact Hm|].
  pose proof (ef_cons _ _ _ He) as [H1 H2].
  assert (Go : forall f c v, post (here last cs) (RDone f c v) -> asked (post last) (rrun n cs c st v)).
  { intros f c v Hp. destruct cs as [|s' cs]; cbn [here post] in Hp.
    - destruct n as [|n']; [exact I|]. exact Hp.
    - apply IH; [exact H2 | apply Hp; reflexivity]. }
  assert (Goe : forall c v, at_end v -> asked (post last) (rrun n cs c st v)) by (intros c v Hv; apply IH; assumption).
  assert (Again : forall c v, at_end v -> asked (post last) (rrun n (s :: cs) c st v)) by (intros c v Hv; apply IH; assumption).
  assert (Then : forall p k, asked (post false) p -> (forall c v, at_end v -> asked (post last) (k c v)) -> asked (post last) (rthen p k)).
  { intros p k Hp Hk. eapply asked_then; [apply treeless_post | exact Hp | intros f c v Hv; apply Hk; apply Hv; reflexivity | intros c v Hv _; apply Hv; reflexivity | auto]. }
  assert (Leaf1 : forall x w' c, ws m = x :: w' -> (last = false \/ cs <> [] -> tt x <> T_EOF) ->
    asked (post last) (rthen (REnd (RDone [Leaf x] c (matched (put m w')))) (fun c v => rrun n cs c st v))).
  { intros x w' c Ew Hx. eapply asked_then with (Q := post (here last cs)); [apply treeless_post | | intros f c0 v; apply Go | intros c0 v; cbn [post]; destruct cs; cbn [here]; auto | auto].
    cbn [asked post]. intros Hh. unfold at_end. cbn [ws put matched]. apply (tail_eof_cons x); [rewrite <- Ew; exact Hm|].
    apply Hx. destruct cs; [left; exact Hh | right; discriminate]. }
  cbn [rrun]. destruct s as [q| |t|c|r|c b|c b|c b|bs|d bs|d b t|d b t].
  - apply Goe. exact Hm.
  - destruct (mode m); [apply Goe; exact Hm|]. cbn [asked]. intros [| |k|]; [apply Goe; exact Hm | apply Goe | apply Goe | intros _; exact Hm].
    + apply end_matched, end_eat, end_report, Hm.
    + apply end_skip, end_report, Hm.
  - destruct (ws m) as [|x w'] eqn:Ew; [unfold at_end in Hm; rewrite Ew in Hm; contradiction|].
    destruct (N.eqb_spec (tt x) t) as [E|E]; [|apply inline_asked; auto].
    apply Leaf1; [reflexivity|]. intros Hl E1. cbn [ef1] in H1. rewrite <- E, E1, N.eqb_refl in H1. cbn [negb] in H1. rewrite orb_false_r in H1.
    destruct cs; cbn [here] in H1; [|discriminate]. destruct Hl as [Hl|Hl]; [congruence | apply Hl; reflexivity].
  - destruct (ws m) as [|x w'] eqn:Ew; [unfold at_end in Hm; rewrite Ew in Hm; contradiction|].
    destruct (eval c (tt x)) eqn:E; [|apply inline_asked; auto].
    apply Leaf1; [reflexivity|]. intros _. exact (eval_not _ _ H1 E).
  - apply Then; [|exact Goe]. eapply asked_bind; [|intros o Ho; exact (catch_asked r cur o Ho)].
    apply IH; [|exact Hm]. pose proof (code_ef r) as C. cbn [ef1] in H1. apply andb_true_iff in H1 as [A1 A2]. unfold starting in C.
    rewrite (proj1 (negb_true_iff _) A1), (proj1 (negb_true_iff _) A2) in C. exact C.
  - destruct (eval c (la (ws m))); [|apply Goe; exact Hm]. apply Then; [|exact Goe]. apply IH; [exact H1 | exact Hm].
  - destruct (eval c (la (ws m))); [|apply Goe; exact Hm]. apply Then; [|exact Again]. apply IH; [exact H1 | exact Hm].
  - apply Then; [apply IH; [exact H1 | exact Hm]|]. intros c1 v Hv. destruct (eval c (la (ws v))); [apply Again | apply Goe]; exact Hv.
  - destruct (pick_case (la (ws m)) bs) as [b|] eqn:E; [|intros _; exact Hm].
    assert (exists ts, In (ts, b) bs) as [ts Hin].
    { clear - E. revert E. generalize (la (ws m)). intros t. induction bs as [|[ts b0] bs IH]; [discriminate|]. cbn [pick_case]. destruct (memb t ts) eqn:X.
      - intros [= ->]. exists ts. left. reflexivity.
      - intros E. destruct (IH E) as [ts' H]. exists ts'. right. exact H. }
    apply Then; [|exact Goe]. apply IH; [|exact Hm]. cbn [ef1] in H1. rewrite forallb_forall in H1. exact (H1 _ Hin).
  - cbn [asked]. split; [intros E; unfold at_end in Hm; rewrite E in Hm; exact Hm|]. intros [[|j]|]; [apply Goe; exact Hm | | intros _; exact Hm].
    destruct (nth_error bs j) as [b|] eqn:E; [|apply Goe; exact Hm].
    eapply asked_then with (Q := post (here last cs)); [apply treeless_post | | intros f c0 v; apply Go | intros c0 v; cbn [post]; destruct cs; cbn [here]; auto | auto].
    apply IH; [|exact Hm]. cbn [ef1] in H1. rewrite forallb_forall in H1. apply H1. apply nth_error_In in E. exact E.
  - cbn [ef1] in H1. apply andb_true_iff in H1 as [B1 B2]. cbn [asked]. split; [intros E; unfold at_end in Hm; rewrite E in Hm; exact Hm|].
    assert (T3 : asked (post last) (rthen (rrun n t cur st m) (fun c2 u => rrun n (SWhilePredict d b t :: cs) c2 st u))).
    { apply Then; [apply IH; [exact B2 | exact Hm] | exact Again]. }
    intros [[|[|[|j]]]|]; [apply Goe; exact Hm | | apply Goe; exact Hm | exact T3 | intros _; exact Hm].
    apply Then; [apply IH; [exact B1 | exact Hm]|]. intros c1 v Hv. apply Then; [apply IH; [exact B2 | exact Hv] | exact Again].
  - cbn [ef1] in H1. apply andb_true_iff in H1 as [B1 B2]. apply Then; [apply IH; [exact B1 | exact Hm]|]. intros c1 v Hv.
    apply Then; [apply IH; [exact B2 | exact Hv]|]. intros c2 u Hu. cbn [asked]. split; [intros E; unfold at_end in Hu; rewrite E in Hu; exact Hu|].
    intros [[|[|[|j]]]|]; [apply Goe; exact Hu | apply Again; exact Hu | apply Goe; exact Hu | intros _; exact Hu | intros _; exact Hu].
Qed.
