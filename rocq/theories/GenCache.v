(** C62: calls that share the prediction cache.

    All parsers of a process use the same staticData.decisionToDFA (parser/rfc5322_parser.go:605-609, :627):
    for every decision a graph in which the first stage of AdaptivePredict stores what it computes.  Its
    nodes stand for sets of configurations, its edges for the next token.  A prediction follows edges that
    are there and adds the ones that are not.  It may run while other goroutines do the same.

    Model: the cache, threads that take small steps on it, a system of any number of threads.  Every read of
    an edge and every addition is one step (the runtime has a lock around each); between two steps of one
    thread others may do anything.  An addition may overwrite: two threads may have found the same edge
    missing.  Not modelled: the cache of merged stacks (predictionContextCache).  The lexer's cache: GenLexCache.v. *)
From Coq Require Import List NArith ZArith Bool Arith Lia.
From Verif Require Import Lexer Grammar Parser Spec ParserFacts Static Cfws First GenSyntax GenAtn GenCode GenRun GenShape GenNet GenCheck GenFacts GenWit GenPredict.
Import ListNotations.

(** ** The cache *)

(** Configurations of alternatives. *)
(* /repo: ANTLR runtime, ATNConfigSet *)
Definition configs := nat -> N -> list N -> Prop.

(** Alternative [i] is left when the tokens [v] are read from one of the configurations. *)
(* /repo: ANTLR runtime, ParserATNSimulator.computeReachSet *)
Definition leads (C : configs) (v : word) (i : nat) : Prop :=
  exists s S s' S', C i s S /\ reach true s S v s' S'.

(* /repo: ANTLR runtime, DFAState *)
Record node : Type := mkNode {
  cfg : configs;                   (* configs *)
  answer_at : option nat }.        (* prediction, if isAcceptState *)

(* /repo: ANTLR runtime, DFAState.edges; [Err] is ATNSimulatorError *)
Inductive target : Type := To (id : nat) | Err.

(* /repo: parser/rfc5322_parser.go:605-609 *)
Record cache : Type := mkCache {
  nodes : list node;
  root : N -> option nat;                       (* per decision: s0 *)
  link : nat -> ttype -> option target }.

(* /repo: parser/rfc5322_parser.go:605-609 *)
Definition empty_cache : cache := mkCache [] (fun _ => None) (fun _ _ => None).

(* /repo: ANTLR runtime, ParserATNSimulator.addDFAState *)
Definition add_node (c : cache) (nd : node) : cache := mkCache (nodes c ++ [nd]) (root c) (link c).
(* /repo: ANTLR runtime, DFA.setS0 *)
Definition set_root (c : cache) (d : N) (id : nat) : cache :=
  mkCache (nodes c) (fun d' => if N.eqb d' d then Some id else root c d') (link c).
(* /repo: ANTLR runtime, ParserATNSimulator.addDFAEdge *)
Definition set_link (c : cache) (id : nat) (t : ttype) (g : target) : cache :=
  mkCache (nodes c) (root c) (fun id' t' => if Nat.eqb id' id && N.eqb t' t then Some g else link c id' t').

(** What the first stage computes.  Only what can be read from the configurations is fixed, not which of
    them are stored. *)
(* /repo: ANTLR runtime, ParserATNSimulator.computeStartState *)
Definition starts (d : N) (C : configs) : Prop := forall v i, leads C v i <-> alive true d [] v i.
(* /repo: ANTLR runtime, ParserATNSimulator.computeTargetState *)
Definition continues (C : configs) (t : ttype) (C' : configs) : Prop :=
  forall x v i, tt x = t -> (leads C' v i <-> leads C (x :: v) i).
(* /repo: ANTLR runtime, ParserATNSimulator.computeTargetState: the reach set is empty *)
Definition breaks_off (C : configs) (t : ttype) : Prop := forall x v i, tt x = t -> ~ leads C (x :: v) i.
(* /repo: ANTLR runtime, ParserATNSimulator.computeTargetState: getUniqueAlt *)
Definition decided (nd : node) : Prop :=
  forall i, answer_at nd = Some i -> leads (cfg nd) [] i /\ forall k, leads (cfg nd) [] k -> k = i.

(** ** Threads *)

(** A call: outside a prediction, or in the first stage of one, at node [id], after the tokens [u] and
    before [v]. *)
(* /repo: ANTLR runtime, ParserATNSimulator.AdaptivePredict *)
Inductive thread : Type :=
| Running (p : prog)
| Reading (d : N) (st : list N) (w : word) (k : option nat -> prog) (id : nat) (u v : word).

(* /repo: ANTLR runtime, ParserATNSimulator.AdaptivePredict, execATN; DefaultErrorStrategy.Sync *)
Inductive step : cache -> thread -> cache -> thread -> Prop :=
| t_root : forall c d st w k id, root c d = Some id ->
    step c (Running (Ask d st w k)) c (Reading d st w k id [] w)
| t_new_root : forall c d st w k nd, starts d (cfg nd) -> decided nd ->
    step c (Running (Ask d st w k)) (set_root (add_node c nd) d (length (nodes c))) (Reading d st w k (length (nodes c)) [] w)
| t_edge : forall c d st w k id u x v id', link c id (tt x) = Some (To id') ->
    step c (Reading d st w k id u (x :: v)) c (Reading d st w k id' (u ++ [x]) v)
| t_edge_err : forall c d st w k id u x v o, link c id (tt x) = Some Err -> in_range d o ->
    step c (Reading d st w k id u (x :: v)) c (Running (k o))
| t_link : forall c d st w k id u x v nd id' nd', nth_error (nodes c) id = Some nd -> nth_error (nodes c) id' = Some nd' ->
    continues (cfg nd) (tt x) (cfg nd') ->
    step c (Reading d st w k id u (x :: v)) (set_link c id (tt x) (To id')) (Reading d st w k id' (u ++ [x]) v)
| t_grow : forall c d st w k id u x v nd nd', nth_error (nodes c) id = Some nd -> continues (cfg nd) (tt x) (cfg nd') -> decided nd' ->
    step c (Reading d st w k id u (x :: v)) (set_link (add_node c nd') id (tt x) (To (length (nodes c))))
      (Reading d st w k (length (nodes c)) (u ++ [x]) v)
| t_break : forall c d st w k id u x v nd o, nth_error (nodes c) id = Some nd -> breaks_off (cfg nd) (tt x) -> in_range d o ->
    step c (Reading d st w k id u (x :: v)) (set_link c id (tt x) Err) (Running (k o))
| t_answer : forall c d st w k id u v nd i, nth_error (nodes c) id = Some nd -> answer_at nd = Some i ->
    step c (Reading d st w k id u v) c (Running (k (Some i)))
| t_second : forall c d st w k id u v o, second_answer d st w o ->
    step c (Reading d st w k id u v) c (Running (k o))
| t_sync : forall c n t k b, fair n t b -> step c (Running (Test n t k)) c (Running (k b)).

(** ** What holds of the cache at all times *)
Record sound (c : cache) : Prop := mkSound {
  s_root : forall d id, root c d = Some id -> exists nd, nth_error (nodes c) id = Some nd /\ starts d (cfg nd);
  s_edge : forall id t id', link c id t = Some (To id') ->
    exists nd nd', nth_error (nodes c) id = Some nd /\ nth_error (nodes c) id' = Some nd' /\ continues (cfg nd) t (cfg nd');
  s_err : forall id t, link c id t = Some Err -> exists nd, nth_error (nodes c) id = Some nd /\ breaks_off (cfg nd) t;
  s_decided : forall id nd, nth_error (nodes c) id = Some nd -> decided nd }.

Lemma empty_sound : sound empty_cache.
Proof. constructor; cbn; try discriminate. intros [|id] nd [=]. Qed.

(** Nodes are only added. *)
Definition extends (c c' : cache) : Prop := forall id nd, nth_error (nodes c) id = Some nd -> nth_error (nodes c') id = Some nd.

Lemma extends_refl c : extends c c.
Proof. intros id nd H. exact H. Qed.

Lemma add_extends c nd : extends c (add_node c nd).
Proof. intros id nd0 H. cbn. rewrite nth_error_app1; [exact H|]. apply nth_error_Some. congruence. Qed.

Lemma add_new c nd : nth_error (nodes (add_node c nd)) (length (nodes c)) = Some nd.
Proof. cbn. rewrite nth_error_app2, Nat.sub_diag; [reflexivity | lia]. Qed.

Lemma sound_add c nd : sound c -> decided nd -> sound (add_node c nd).
Proof.
  intros [H1 H2 H3 H4] D. pose proof (add_extends c nd) as X. constructor.
  - intros d id E. destruct (H1 d id E) as (n0 & E0 & S0). exists n0. auto.
  - intros id t id' E. destruct (H2 id t id' E) as (n1 & n2 & E1 & E2 & C). exists n1, n2. auto.
  - intros id t E. destruct (H3 id t E) as (n1 & E1 & C). exists n1. auto.
  - intros id n0 E. cbn in E. destruct (Nat.lt_ge_cases id (length (nodes c))) as [L|L].
    + rewrite nth_error_app1 in E by exact L. exact (H4 _ _ E).
    + rewrite nth_error_app2 in E by exact L. destruct (id - length (nodes c)) as [|m]; [injection E as <-; exact D | destruct m; discriminate].
Qed.

Lemma sound_root c d id nd : sound c -> nth_error (nodes c) id = Some nd -> starts d (cfg nd) -> sound (set_root c d id).
Proof.
  intros [H1 H2 H3 H4] E S0. constructor; auto. cbn. intros d' id'. destruct (N.eqb_spec d' d) as [->|].
  - intros [= <-]. exists nd. auto.
  - apply H1.
Qed.

Lemma sound_link c id t id' nd nd' : sound c -> nth_error (nodes c) id = Some nd -> nth_error (nodes c) id' = Some nd' ->
  continues (cfg nd) t (cfg nd') -> sound (set_link c id t (To id')).
Proof.
  intros [H1 H2 H3 H4] E E' S0. constructor; auto; cbn; intros id0 t0.
  - intros id1. destruct (Nat.eqb_spec id0 id) as [->|]; destruct (N.eqb_spec t0 t) as [->|]; cbn [andb]; try apply H2.
    intros [= <-]. exists nd, nd'. auto.
  - destruct (Nat.eqb_spec id0 id) as [->|]; destruct (N.eqb_spec t0 t) as [->|]; cbn [andb]; try apply H3. discriminate.
Qed.

Lemma sound_break c id t nd : sound c -> nth_error (nodes c) id = Some nd -> breaks_off (cfg nd) t -> sound (set_link c id t Err).
Proof.
  intros [H1 H2 H3 H4] E S0. constructor; auto; cbn; intros id0 t0.
  - intros id1. destruct (Nat.eqb_spec id0 id) as [->|]; destruct (N.eqb_spec t0 t) as [->|]; cbn [andb]; try apply H2. discriminate.
  - destruct (Nat.eqb_spec id0 id) as [->|]; destruct (N.eqb_spec t0 t) as [->|]; cbn [andb]; try apply H3. intros _. exists nd. auto.
Qed.

(** ** What holds of a thread at all times *)

(** It will end with [P]; and at a node of the cache it is where the tokens read so far lead. *)
Definition at_node (c : cache) (d : N) (id : nat) (u : word) : Prop :=
  exists nd, nth_error (nodes c) id = Some nd /\ forall v i, leads (cfg nd) v i <-> alive true d [] (u ++ v) i.

Definition fine (P : outcome -> Prop) (c : cache) (t : thread) : Prop :=
  match t with
  | Running p => every P p
  | Reading d st w k id u v => w = u ++ v /\ (forall o, right d st w o -> every P (k o)) /\ at_node c d id u
  end.

Lemma fine_extends P c c' t : extends c c' -> fine P c t -> fine P c' t.
Proof.
  intros X. destruct t as [p|d st w k id u v]; cbn [fine]; [auto|]. intros (E & H & nd & En & L). split; [exact E|]. split; [exact H|].
  exists nd. split; [apply X; exact En | exact L].
Qed.

Lemma at_next c c' d id id' u x nd nd' : extends c c' -> nth_error (nodes c) id = Some nd -> nth_error (nodes c') id' = Some nd' ->
  continues (cfg nd) (tt x) (cfg nd') -> at_node c d id u -> at_node c' d id' (u ++ [x]).
Proof.
  intros X E E' C (n0 & E0 & L). assert (n0 = nd) as -> by congruence. exists nd'. split; [exact E'|]. intros v i.
  rewrite (C x v i eq_refl), L, <- app_assoc. reflexivity.
Qed.

Lemma first_right d st u v i nd c id : sound c -> nth_error (nodes c) id = Some nd -> answer_at nd = Some i -> at_node c d id u ->
  right d st (u ++ v) (Some i).
Proof.
  intros K E A (n0 & E0 & L). assert (n0 = nd) as -> by congruence. destruct (s_decided _ K _ _ E i A) as [D1 D2].
  apply C61_answers_are_right. apply (a_first _ _ _ u v); [reflexivity|].
  assert (Q : forall k, leads (cfg nd) [] k <-> alive true d [] u k) by (intros k; rewrite (L [] k), app_nil_r; reflexivity).
  split; [apply Q; exact D1|]. intros k Hk. apply D2. apply Q. exact Hk.
Qed.

Lemma break_right d st u x v o nd c id : nth_error (nodes c) id = Some nd -> breaks_off (cfg nd) (tt x) -> in_range d o -> at_node c d id u ->
  right d st (u ++ x :: v) o.
Proof.
  intros E B R (n0 & E0 & L). assert (n0 = nd) as -> by congruence. apply C61_answers_are_right.
  apply (a_error1 _ _ _ (u ++ [x]) v); [rewrite <- app_assoc; reflexivity | | exact R].
  intros k Hk. apply (B x [] k eq_refl). apply (L [x] k). exact Hk.
Qed.

(** One step keeps the cache sound and the thread fine. *)
Lemma step_keeps c t c' t' : step c t c' t' -> sound c -> sound c' /\ extends c c' /\ forall P, fine P c t -> fine P c' t'.
Proof.
  intros H K. destruct H as [c d st w k id E | c d st w k nd S0 D | c d st w k id u x v id' E | c d st w k id u x v o E R
    | c d st w k id u x v nd id' nd' E E' C | c d st w k id u x v nd nd' E C D | c d st w k id u x v nd o E B R
    | c d st w k id u v nd i E A | c d st w k id u v o A | c n t k b F].
  - split; [exact K|]. split; [apply extends_refl|]. intros P H. cbn [fine every] in *. split; [reflexivity|]. split; [exact H|].
    destruct (s_root _ K _ _ E) as (nd & En & L). exists nd. split; [exact En | exact L].
  - assert (K1 : sound (add_node c nd)) by (apply sound_add; assumption). split; [eapply sound_root; [exact K1 | apply add_new | exact S0]|].
    split; [apply add_extends|]. intros P H. cbn [fine every] in *. split; [reflexivity|]. split; [exact H|].
    exists nd. split; [apply add_new | exact S0].
  - split; [exact K|]. split; [apply extends_refl|]. intros P (-> & H & A). cbn [fine]. split; [rewrite <- app_assoc; reflexivity|]. split; [exact H|].
    destruct (s_edge _ K _ _ _ E) as (nd & nd' & E1 & E2 & C). exact (at_next c c d id id' u x nd nd' (extends_refl c) E1 E2 C A).
  - split; [exact K|]. split; [apply extends_refl|]. intros P (-> & H & A). cbn [fine]. apply H.
    destruct (s_err _ K _ _ E) as (nd & E1 & B). exact (break_right d st u x v o nd c id E1 B R A).
  - split; [eapply sound_link; eassumption|]. split; [intros ? ? HH; exact HH|]. intros P (-> & H & A). cbn [fine]. split; [rewrite <- app_assoc; reflexivity|]. split; [exact H|].
    exact (at_next c (set_link c id (tt x) (To id')) d id id' u x nd nd' (fun _ _ HH => HH) E E' C A).
  - assert (K1 : sound (add_node c nd')) by (apply sound_add; assumption). pose proof (add_extends c nd') as X.
    split; [eapply sound_link; [exact K1 | apply X; exact E | apply add_new | exact C]|]. split; [exact X|].
    intros P (-> & H & A). cbn [fine]. split; [rewrite <- app_assoc; reflexivity|]. split; [exact H|].
    exact (at_next c _ d id (length (nodes c)) u x nd nd' X E (add_new c nd') C A).
  - split; [eapply sound_break; eassumption|]. split; [intros ? ? HH; exact HH|]. intros P (-> & H & A). cbn [fine]. apply H.
    exact (break_right d st u x v o nd c id E B R A).
  - split; [exact K|]. split; [apply extends_refl|]. intros P (-> & H & A0). cbn [fine]. apply H. exact (first_right d st u v i nd c id K E A A0).
  - split; [exact K|]. split; [apply extends_refl|]. intros P (-> & H & _). cbn [fine]. apply H. apply C61_answers_are_right. apply a_full. exact A.
  - split; [exact K|]. split; [apply extends_refl|]. intros P H. cbn [fine every] in *. apply H. exact F.
Qed.

(** ** A thread ends after finitely many of its own steps *)

(** [steps_to t' t]: one step of the thread, with whatever others have made of the cache. *)
Definition own_step (t' t : thread) : Prop := exists c c', step c t c' t'.

Lemma reading_ends d st w k : (forall o, Acc own_step (Running (k o))) -> forall v id u, Acc own_step (Reading d st w k id u v).
Proof.
  intros H. induction v as [|x v IH]; intros id u; constructor; intros t' (c & c' & S0); inversion S0; subst; auto.
Qed.

Lemma running_ends p : Acc own_step (Running p).
Proof.
  induction p as [o|d st w k IH|n t k IH]; constructor; intros t' (c & c' & S0); inversion S0; subst.
  - apply reading_ends. exact IH.
  - apply reading_ends. exact IH.
  - apply IH.
Qed.

Lemma thread_ends t : Acc own_step t.
Proof. destruct t as [p|d st w k id u v]; [apply running_ends | apply reading_ends; intros o; apply running_ends]. Qed.

(** ** A thread is never blocked *)
Definition finished (t : thread) : Prop := exists o, t = Running (End o).

Lemma fair_reply n t : fair n t (sync_test n t).
Proof. apply (proj2 some_runtime_ok n t). Qed.
