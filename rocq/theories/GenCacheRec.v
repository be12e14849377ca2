(** C62, continued: runs with recovery on the shared cache.

    GenCache.v lets a call stop at its first syntax error.  In the code the error handler lets the parser go on, and
    the predictions that are made then use the cache as well and add to it.  Here the threads are the runs of
    GenRecover.v. *)
From Coq Require Import List NArith ZArith Bool Arith Lia.
From Verif Require Import Lexer Grammar Parser Spec ParserFacts Static Cfws First GenSyntax GenAtn GenCode GenRun GenShape GenNet GenCheck GenFacts GenWit GenPredict GenCache PropPredict PropCache GenRecover GenRecAsk PropRecover.
Import ListNotations.

(** ** Threads *)

(* /repo: ANTLR runtime, ParserATNSimulator.AdaptivePredict *)
Inductive rthread : Type :=
| RRunning (p : rprog)
| RReading (d : N) (st : list N) (w : word) (k : option nat -> rprog) (id : nat) (u v : word).

(** What the second stage replies; it does not use the cache. *)
(* /repo: ANTLR runtime, ParserATNSimulator.execATNWithFullContext *)
Inductive second_reply (d : N) (st : list N) (w : word) : option nat -> Prop :=
| z_second : forall u x v i, w = u ++ x :: v -> as_good d st (u ++ [x]) i -> second_reply d st w (Some i)
| z_second_error : forall u x v o, w = u ++ x :: v -> (forall k, ~ alive false d (map return_state st) (u ++ [x]) k) ->
    (forall i, o = Some i -> left_over false d (map return_state st) u i) -> second_reply d st w o
| z_end : forall u x i, w = u ++ [x] -> can_finish d st w i -> (forall j, j < i -> ~ can_finish d st w j) -> second_reply d st w (Some i)
| z_end_error : forall u x o, w = u ++ [x] -> (forall k, ~ can_finish d st w k) ->
    (forall i, o = Some i -> left_over false d (map return_state st) u i) -> second_reply d st w o.

(** As GenCache.step: the first stage reads at least one token before it takes an answer from the cache; where the
    cache says that no alternative can go on, one that left the rule is replied, or an error. *)
(* /repo: ANTLR runtime, ParserATNSimulator.AdaptivePredict, execATN; DefaultErrorStrategy *)
Inductive rstep : cache -> rthread -> cache -> rthread -> Prop :=
| r_root : forall c d st w k id, root c d = Some id ->
    rstep c (RRunning (RAsk d st w k)) c (RReading d st w k id [] w)
| r_new_root : forall c d st w k nd, starts d (cfg nd) -> decided nd ->
    rstep c (RRunning (RAsk d st w k)) (set_root (add_node c nd) d (length (nodes c))) (RReading d st w k (length (nodes c)) [] w)
| r_edge : forall c d st w k id u x v id', link c id (tt x) = Some (To id') ->
    rstep c (RReading d st w k id u (x :: v)) c (RReading d st w k id' (u ++ [x]) v)
| r_edge_err : forall c d st w k id u x v o, link c id (tt x) = Some Err -> (forall i, o = Some i -> left_over true d [] u i) ->
    rstep c (RReading d st w k id u (x :: v)) c (RRunning (k o))
| r_link : forall c d st w k id u x v nd id' nd', nth_error (nodes c) id = Some nd -> nth_error (nodes c) id' = Some nd' ->
    continues (cfg nd) (tt x) (cfg nd') ->
    rstep c (RReading d st w k id u (x :: v)) (set_link c id (tt x) (To id')) (RReading d st w k id' (u ++ [x]) v)
| r_grow : forall c d st w k id u x v nd nd', nth_error (nodes c) id = Some nd -> continues (cfg nd) (tt x) (cfg nd') -> decided nd' ->
    rstep c (RReading d st w k id u (x :: v)) (set_link (add_node c nd') id (tt x) (To (length (nodes c))))
      (RReading d st w k (length (nodes c)) (u ++ [x]) v)
| r_break : forall c d st w k id u x v nd o, nth_error (nodes c) id = Some nd -> breaks_off (cfg nd) (tt x) ->
    (forall i, o = Some i -> left_over true d [] u i) ->
    rstep c (RReading d st w k id u (x :: v)) (set_link c id (tt x) Err) (RRunning (k o))
| r_answer : forall c d st w k id u x v nd i, nth_error (nodes c) id = Some nd -> answer_at nd = Some i ->
    rstep c (RReading d st w k id (u ++ [x]) v) c (RRunning (k (Some i)))
| r_second : forall c d st w k id u v o, second_reply d st w o ->
    rstep c (RReading d st w k id u v) c (RRunning (k o))
| r_sync : forall c n t k y, fair_sync n t y -> rstep c (RRunning (RSync n t k)) c (RRunning (k y))
| r_inline : forall c n t k y, fair_inline t y -> rstep c (RRunning (RInline n t k)) c (RRunning (k y))
| r_skip : forall c n t k i, rstep c (RRunning (RSkip n t k)) c (RRunning (k i)).

(** ** What holds of a thread at all times *)
Definition rfine (P : routcome -> Prop) (c : cache) (t : rthread) : Prop :=
  match t with
  | RRunning p => revery P p
  | RReading d st w k id u v => w = u ++ v /\ (forall o, right d st w o -> sensible d w o -> revery P (k o)) /\ at_node c d id u
  end.

Lemma rfine_extends P c c' t : extends c c' -> rfine P c t -> rfine P c' t.
Proof.
  intros X. destruct t as [p|d st w k id u v]; cbn [rfine]; [auto|]. intros (E & H & nd & En & L). split; [exact E|]. split; [exact H|].
  exists nd. split; [apply X; exact En | exact L].
Qed.

(** It asks for predictions only before a token. *)
Definition rasks (t : rthread) : Prop :=
  match t with
  | RRunning p => asked (fun _ => True) p
  | RReading d st w k id u v => w <> [] /\ forall o, asked (fun _ => True) (k o)
  end.

Lemma second_is_reply d st w o : second_reply d st w o -> reply d st w o.
Proof.
  intros [u x v i E H|u x v o0 E H F|u x i E H L|u x o0 E H F].
  - eapply y_second; eassumption.
  - eapply y_second_error; eassumption.
  - eapply y_end; eassumption.
  - eapply y_end_error; eassumption.
Qed.

Lemma some_second d st w : w <> [] -> second_reply d st w (first_alt d st w).
Proof.
  intros Hw. destruct (exists_last Hw) as (u & x & E). unfold first_alt. pose proof (find_seq (try_alt d st w) (length (alternatives d)) 1) as F.
  destruct (find (try_alt d st w) (seq 1 (length (alternatives d)))) as [i|].
  - destruct F as (R & T & L). apply (z_end _ _ _ u x); [exact E | apply try_alt_spec; exact T|].
    intros j Hj C. pose proof (can_finish_range _ _ _ _ C). apply try_alt_spec in C. rewrite L in C; [discriminate | lia].
  - apply (z_end_error _ _ _ u x); [exact E | | intros i0 [=]]. intros k C. pose proof (can_finish_range _ _ _ _ C). apply try_alt_spec in C. rewrite F in C; [discriminate | lia].
Qed.

Lemma answer_reply d st u x v i nd c id : sound c -> nth_error (nodes c) id = Some nd -> answer_at nd = Some i -> at_node c d id (u ++ [x]) ->
  reply d st ((u ++ [x]) ++ v) (Some i).
Proof.
  intros K E A (n0 & E0 & L). assert (n0 = nd) as -> by congruence. destruct (s_decided _ K _ _ E i A) as [D1 D2].
  apply (y_first _ _ _ u x v); [rewrite <- app_assoc; reflexivity|].
  assert (Q : forall k, leads (cfg nd) [] k <-> alive true d [] (u ++ [x]) k) by (intros k; rewrite (L [] k), app_nil_r; reflexivity).
  split; [apply Q; exact D1|]. intros k Hk. apply D2. apply Q. exact Hk.
Qed.

Lemma error_reply d st u x v o nd c id : nth_error (nodes c) id = Some nd -> breaks_off (cfg nd) (tt x) ->
  (forall i, o = Some i -> left_over true d [] u i) -> at_node c d id u -> reply d st (u ++ x :: v) o.
Proof.
  intros E B F (n0 & E0 & L). assert (n0 = nd) as -> by congruence. apply (y_first_error _ _ _ u x v); [reflexivity | | exact F].
  intros k Hk. apply (B x [] k eq_refl). apply (L [x] k). exact Hk.
Qed.

(** Every reply that is taken from the cache, or found otherwise, is one that ALL-star gives. *)
Lemma rstep_keeps c t c' t' : rstep c t c' t' -> sound c ->
  sound c' /\ extends c c' /\ (forall P, rfine P c t -> rfine P c' t') /\ (rasks t -> rasks t').
Proof.
  intros H K. destruct H as [c d st w k id E | c d st w k nd S0 D | c d st w k id u x v id' E | c d st w k id u x v o E R
    | c d st w k id u x v nd id' nd' E E' C | c d st w k id u x v nd nd' E C D | c d st w k id u x v nd o E B R
    | c d st w k id u x v nd i E A | c d st w k id u v o A | c n t k y F | c n t k y F | c n t k i].
  - split; [exact K|]. split; [apply extends_refl|]. split; [|intros H; exact H]. intros P H. cbn [rfine revery] in *. split; [reflexivity|]. split; [exact H|].
    destruct (s_root _ K _ _ E) as (nd & En & L). exists nd. split; [exact En | exact L].
  - assert (K1 : sound (add_node c nd)) by (apply sound_add; assumption). split; [eapply sound_root; [exact K1 | apply add_new | exact S0]|].
    split; [apply add_extends|]. split; [|intros H; exact H]. intros P H. cbn [rfine revery] in *. split; [reflexivity|]. split; [exact H|].
    exists nd. split; [apply add_new | exact S0].
  - split; [exact K|]. split; [apply extends_refl|]. split; [|intros H; exact H]. intros P (-> & H & A). cbn [rfine]. split; [rewrite <- app_assoc; reflexivity|]. split; [exact H|].
    destruct (s_edge _ K _ _ _ E) as (nd & nd' & E1 & E2 & C). exact (at_next c c d id id' u x nd nd' (extends_refl c) E1 E2 C A).
  - split; [exact K|]. split; [apply extends_refl|]. split; [|intros [_ H]; apply H]. intros P (-> & H & A). cbn [rfine].
    destruct (s_err _ K _ _ E) as (nd & E1 & B). destruct (reply_ok _ _ _ _ (error_reply d st u x v o nd c id E1 B R A)) as [G1 G2]. apply H; assumption.
  - split; [eapply sound_link; eassumption|]. split; [intros ? ? HH; exact HH|]. split; [|intros H; exact H]. intros P (-> & H & A). cbn [rfine]. split; [rewrite <- app_assoc; reflexivity|]. split; [exact H|].
    exact (at_next c (set_link c id (tt x) (To id')) d id id' u x nd nd' (fun _ _ HH => HH) E E' C A).
  - assert (K1 : sound (add_node c nd')) by (apply sound_add; assumption). pose proof (add_extends c nd') as X.
    split; [eapply sound_link; [exact K1 | apply X; exact E | apply add_new | exact C]|]. split; [exact X|]. split; [|intros H; exact H].
    intros P (-> & H & A). cbn [rfine]. split; [rewrite <- app_assoc; reflexivity|]. split; [exact H|].
    exact (at_next c _ d id (length (nodes c)) u x nd nd' X E (add_new c nd') C A).
  - split; [eapply sound_break; eassumption|]. split; [intros ? ? HH; exact HH|]. split; [|intros [_ H]; apply H]. intros P (-> & H & A). cbn [rfine].
    destruct (reply_ok _ _ _ _ (error_reply d st u x v o nd c id E B R A)) as [G1 G2]. apply H; assumption.
  - split; [exact K|]. split; [apply extends_refl|]. split; [|intros [_ H]; apply H]. intros P (-> & H & A0). cbn [rfine].
    destruct (reply_ok _ _ _ _ (answer_reply d st u x v i nd c id K E A A0)) as [G1 G2]. apply H; assumption.
  - split; [exact K|]. split; [apply extends_refl|]. split; [|intros [_ H]; apply H]. intros P (-> & H & _). cbn [rfine].
    destruct (reply_ok _ _ _ _ (second_is_reply _ _ _ _ A)) as [G1 G2]. apply H; assumption.
  - split; [exact K|]. split; [apply extends_refl|]. split; [|intros H; apply H]. intros P H. cbn [rfine revery] in *. apply H. exact F.
  - split; [exact K|]. split; [apply extends_refl|]. split; [|intros H; apply H]. intros P H. cbn [rfine revery] in *. apply H. exact F.
  - split; [exact K|]. split; [apply extends_refl|]. split; [|intros H; apply H]. intros P H. cbn [rfine revery] in *. apply H.
Qed.

(** ** A thread ends after finitely many of its own steps, and is never blocked *)
Definition rown_step (t' t : rthread) : Prop := exists c c', rstep c t c' t'.

Lemma rreading_ends d st w k : (forall o, Acc rown_step (RRunning (k o))) -> forall v id u, Acc rown_step (RReading d st w k id u v).
Proof.
  intros H. induction v as [|x v IH]; intros id u; constructor; intros t' (c & c' & S0); inversion S0; subst; auto.
Qed.

Lemma rrunning_ends p : Acc rown_step (RRunning p).
Proof.
  induction p as [o|d st w k IH|n t k IH|n t k IH|n t k IH]; constructor; intros t' (c & c' & S0); inversion S0; subst; try apply IH; apply rreading_ends; exact IH.
Qed.

Lemma rthread_ends t : Acc rown_step t.
Proof. destruct t as [p|d st w k id u v]; [apply rrunning_ends | apply rreading_ends; intros o; apply rrunning_ends]. Qed.

Lemma rnot_blocked c t : rasks t -> (exists o, t = RRunning (REnd o)) \/ exists c' t', rstep c t c' t'.
Proof.
  destruct t as [[o|d st w k|n t k|n t k|n t k]|d st w k id u v]; intros A.
  - left. exists o. reflexivity.
  - right. eexists _, _. apply (r_new_root c d st w k (mkNode (has true d [] []) None)); [apply starts_here | intros i [=]].
  - right. eexists _, _. apply (r_sync c n t k SyncOk). split; [auto | intros [=]].
  - right. eexists _, _. apply (r_inline c n t k InlineThrow). intros [=].
  - right. eexists _, _. apply (r_skip c n t k 0).
  - right. eexists _, _. apply r_second. apply some_second. exact (proj1 A).
Qed.
