(** C61: prediction as the ANTLR runtime does it (ParserATNSimulator.AdaptivePredict, called at
    parser/rfc5322_parser.go:1039 and 45 other places) meets what GenRun.runtime_ok assumes of it.

    The runtime is not in the repository: this is a model of its algorithm, ALL-star, on the network that
    the generated file deserializes.  The algorithm reads ahead and keeps, for every alternative of the
    decision, the configurations (a state and a stack of states to return to) in which the network can be.
    - First stage (SLL): the pending rule functions are ignored.  At the end of a rule with an empty stack
      the network goes on after every invocation of that rule in the grammar.  As soon as a single
      alternative has configurations left, it is predicted.
    - Second stage (LL), if the first one meets a conflict: the same from the start, with the actual pending
      rule functions.  As soon as the configurations left show one alternative to be as good as all others
      (PredictionMode.resolvesToJustOneViableAlt), it is predicted; after the end-of-file token only
      configurations that have finished count, and the least alternative is predicted.
    - If no configuration is left, an error is reported, or some alternative is chosen with which the parser
      will run into the error.
    Simplifications: the two stages may stop at any point where they may give an answer (the algorithm
    stops at the first one), so everything here holds wherever it stops; the cache of decisions (the DFA)
    is left out, it stores answers of the first stage. *)
From Coq Require Import List NArith ZArith Bool Arith Lia FMapPositive.
From Verif Require Import Lexer Grammar Parser Spec ParserFacts Static Cfws First GenSyntax GenAtn GenCode GenRun GenShape GenNet GenCheck GenFacts GenWit.
Import ListNotations.

(** ** The algorithm *)

(** [reach wild s S u s' S']: from state [s] with stack [S] the network can get to [s'] with [S'], reading
    the tokens [u].  [wild]: the stack is only the upper part of the real one, and at its end the network
    goes on after any invocation of the rule. *)
(* /repo: ANTLR runtime, ParserATNSimulator.closure and computeReachSet *)
Inductive reach (wild : bool) : N -> list N -> word -> N -> list N -> Prop :=
| h_here : forall s S, reach wild s S [] s S
| h_eps : forall s t S u s' S', In (EEps t) (edges s) -> reach wild t S u s' S' -> reach wild s S u s' S'
| h_tok : forall s rs t S x u s' S',
    In (ETok rs t) (edges s) -> in_ranges (go_type (tt x)) rs = true -> reach wild t S u s' S' -> reach wild s S (x :: u) s' S'
| h_rule : forall s b ix f S u s' S', In (ERule b ix f) (edges s) -> reach wild b (f :: S) u s' S' -> reach wild s S u s' S'
| h_ret : forall s f S u s' S', is_stop s = true -> reach wild f S u s' S' -> reach wild s (f :: S) u s' S'
| h_out : forall s n b f u s' S', wild = true -> is_stop s = true -> In (ERule b (rule_of s) f) (edges n) ->
    reach wild f [] u s' S' -> reach wild s [] u s' S'.

(** Alternative [i] of decision [d], begun with stack [S], can have configuration [(s, S')] after [u]. *)
(* /repo: ANTLR runtime, ParserATNSimulator.computeStartState *)
Definition has (wild : bool) (d : N) (S : list N) (u : word) (i : nat) (s : N) (S' : list N) : Prop :=
  exists t, alternative d i = Some t /\ reach wild t S u s S'.

(* /repo: ANTLR runtime, ParserATNSimulator.computeStartState *)
Definition alive (wild : bool) (d : N) (S : list N) (u : word) (i : nat) : Prop := exists s S', has wild d S u i s S'.

(** The configurations that the second stage keeps: before a token, or at the end of everything. *)
(* /repo: ANTLR runtime, ParserATNSimulator.closureWork *)
Definition kept (s : N) (S : list N) : Prop := (exists rs t, In (ETok rs t) (edges s)) \/ (is_stop s = true /\ S = []).

(** First stage: [i] is the only alternative left. *)
(* /repo: ANTLR runtime, ParserATNSimulator.getUniqueAlt *)
Definition only_one (d : N) (u : word) (i : nat) : Prop :=
  alive true d [] u i /\ forall k, alive true d [] u k -> k = i.

(** Second stage: [i] is left, it is the least alternative left, and every configuration of another
    alternative is one of [i] as well. *)
(* /repo: ANTLR runtime, PredictionMode.resolvesToJustOneViableAlt *)
Definition as_good (d : N) (st : list N) (u : word) (i : nat) : Prop :=
  let S := map return_state st in
  alive false d S u i /\
  forall k s S', has false d S u k s S' -> kept s S' -> i <= k /\ has false d S u i s S'.

(** The answers of the second stage for decision [d] before the tokens [w], when the pending rule functions
    were invoked from [st]; [None]: an error is reported. *)
(* /repo: ANTLR runtime, ParserATNSimulator.execATNWithFullContext *)
Definition in_range (d : N) (o : option nat) : Prop := forall i, o = Some i -> 1 <= i <= length (alternatives d).

(* /repo: ANTLR runtime, ParserATNSimulator.execATNWithFullContext *)
Inductive second_answer (d : N) (st : list N) (w : word) : option nat -> Prop :=
| a_second : forall u v i, w = u ++ v -> as_good d st u i -> second_answer d st w (Some i)
| a_end : forall i, can_finish d st w i -> (forall j, j < i -> ~ can_finish d st w j) -> second_answer d st w (Some i)
| a_error2 : forall u v o, w = u ++ v -> (forall k, ~ alive false d (map return_state st) u k) -> in_range d o -> second_answer d st w o
| a_error3 : forall o, (forall k, ~ can_finish d st w k) -> in_range d o -> second_answer d st w o.

(** The answers AdaptivePredict may give. *)
(* /repo: ANTLR runtime, ParserATNSimulator.execATN *)
Inductive answer (d : N) (st : list N) (w : word) : option nat -> Prop :=
| a_first : forall u v i, w = u ++ v -> only_one d u i -> answer d st w (Some i)
| a_error1 : forall u v o, w = u ++ v -> (forall k, ~ alive true d [] u k) -> in_range d o -> answer d st w o
| a_full : forall o, second_answer d st w o -> answer d st w o.

(** A runtime that predicts in this way, and whose Sync is a test of the next token. *)
(* /repo: ANTLR runtime *)
Record all_star (rt : runtime) : Prop := mkAllStar {
  as_predict : forall d st w, answer d st w (predict rt d st w);
  as_sync : forall n t, sync_fails rt n t = true -> ~ next n [] None /\ ~ next n [] (Some t) }.

(** ** The network keeps to the rules *)
Definition edge_kept (s : N) (e : edge) : bool :=
  match e with
  | EEps t => N.eqb (rule_of t) (rule_of s)
  | ETok _ t => N.eqb (rule_of t) (rule_of s)
  | ERule b ix f => N.eqb (rule_of f) (rule_of s) && N.eqb ix (rule_of b)
  end.

Definition unkey (p : positive) : N := Pos.pred_N p.

Lemma edges_kept : forallb (fun x => forallb (edge_kept (unkey (fst x))) (snd x)) (PositiveMap.elements (a_edges parser_atn)) = true.
Proof. vm_compute. reflexivity. Qed.

Lemma edge_rule s e : In e (edges s) -> edge_kept s e = true.
Proof.
  unfold edges, get. destruct (PositiveMap.find (N.succ_pos s) (a_edges parser_atn)) as [l|] eqn:E; [|intros []].
  intros H. pose proof edges_kept as K. rewrite forallb_forall in K. apply PositiveMap.elements_correct in E.
  specialize (K _ E). cbn [fst snd] in K. rewrite forallb_forall in K. specialize (K e H).
  unfold unkey in K. rewrite N.pos_pred_succ in K. exact K.
Qed.

Lemma eps_rule s t : In (EEps t) (edges s) -> rule_of t = rule_of s.
Proof. intros H. apply edge_rule in H. apply N.eqb_eq. exact H. Qed.

Lemma tok_rule s rs t : In (ETok rs t) (edges s) -> rule_of t = rule_of s.
Proof. intros H. apply edge_rule in H. apply N.eqb_eq. exact H. Qed.

Lemma rule_rule s b ix f : In (ERule b ix f) (edges s) -> rule_of f = rule_of s.
Proof. intros H. apply edge_rule in H. cbn in H. apply andb_true_iff in H as [H _]. apply N.eqb_eq. exact H. Qed.

(** ** The second stage *)
Lemma path_split s S w : path s S w -> forall u v, w = u ++ v ->
  exists s' S', reach false s S u s' S' /\ kept s' S' /\ path s' S' v.
Proof.
  induction 1 as [s Hs | s f S w Hs Hp IH | s t S w Hi Hp IH | s rs t S x w Hi Hr Hp IH | s b ix f S w Hi Hp IH]; intros u v E.
  - symmetry in E. apply app_eq_nil in E as [-> ->]. exists s, []. split; [constructor|]. split; [right; auto | constructor; exact Hs].
  - destruct (IH u v E) as (s' & S' & H1 & H2 & H3). exists s', S'. split; [apply h_ret; assumption | auto].
  - destruct (IH u v E) as (s' & S' & H1 & H2 & H3). exists s', S'. split; [eapply h_eps; eassumption | auto].
  - destruct u as [|y u].
    + cbn in E. subst v. exists s, S. split; [constructor|]. split; [left; eauto | eapply p_tok; eassumption].
    + injection E as <- E. destruct (IH u v E) as (s' & S' & H1 & H2 & H3). exists s', S'. split; [eapply h_tok; eassumption | auto].
  - destruct (IH u v E) as (s' & S' & H1 & H2 & H3). exists s', S'. split; [eapply h_rule; eassumption | auto].
Qed.

Lemma reach_path wild s S u s' S' : reach wild s S u s' S' -> wild = false -> forall v, path s' S' v -> path s S (u ++ v).
Proof.
  induction 1 as [s S | s t S u s' S' Hi H IH | s rs t S x u s' S' Hi Hr H IH | s b ix f S u s' S' Hi H IH
    | s f S u s' S' Hs H IH | s n b f u s' S' Hw Hs Hi H IH]; intros W v P.
  - exact P.
  - eapply p_eps; [exact Hi | apply IH; assumption].
  - cbn [app]. eapply p_tok; [exact Hi | exact Hr | apply IH; assumption].
  - eapply p_rule; [exact Hi | apply IH; assumption].
  - apply p_ret; [exact Hs | apply IH; assumption].
  - congruence.
Qed.

Lemma second_stage d st u v i j : as_good d st u i -> can_finish d st (u ++ v) j ->
  i <= j /\ can_finish d st (u ++ v) i.
Proof.
  intros [_ H] (t & Et & P). destruct (path_split _ _ _ P u v eq_refl) as (s' & S' & R & K & Q).
  destruct (H j s' S') as [L (t' & Et' & R')]; [exists t; auto | exact K|].
  split; [exact L|]. exists t'. split; [exact Et'|]. exact (reach_path _ _ _ _ _ _ R' eq_refl _ Q).
Qed.

(** ** The first stage *)
Fixpoint base (s : N) (S : list N) : N := match S with [] => s | f :: S' => base f S' end.

Lemma base_rule S : forall s s', rule_of s = rule_of s' -> rule_of (base s S) = rule_of (base s' S).
Proof. destruct S as [|f S]; intros s s' H; [exact H | reflexivity]. Qed.

Lemma reach_wild wild s S u s' S' : reach wild s S u s' S' -> wild = false ->
  forall S1 st, S = S1 ++ map return_state st -> linked (rule_of (base s S1)) st ->
  exists S2, reach true s S1 u s' S2.
Proof.
  induction 1 as [s S | s t S u s' S' Hi H IH | s rs t S x u s' S' Hi Hr H IH | s b ix f S u s' S' Hi H IH
    | s f S u s' S' Hs H IH | s n b f u s' S' Hw Hs Hi H IH]; intros W S1 st E L.
  - exists S1. constructor.
  - destruct (IH W S1 st E) as [S2 R].
    { rewrite (base_rule S1 t s); [exact L | apply (eps_rule _ _ Hi)]. }
    exists S2. eapply h_eps; eassumption.
  - destruct (IH W S1 st E) as [S2 R].
    { rewrite (base_rule S1 t s); [exact L | apply (tok_rule _ _ _ Hi)]. }
    exists S2. eapply h_tok; eassumption.
  - destruct (IH W (f :: S1) st) as [S2 R].
    { cbn [app]. rewrite E. reflexivity. }
    { cbn [base]. rewrite (base_rule S1 f s); [exact L | apply (rule_rule _ _ _ _ Hi)]. }
    exists S2. eapply h_rule; eassumption.
  - destruct S1 as [|f1 S1]; cbn [app] in E.
    + destruct st as [|n st]; [discriminate|]. cbn [map] in E. injection E as Ef E. cbn [base linked] in L. destruct L as [Ln L].
      unfold return_state in Ef. destruct (edges n) as [|[|  |b ix g] es] eqn:En; try contradiction. subst ix g.
      assert (Hin : In (ERule b (rule_of s) f) (edges n)) by (rewrite En; left; reflexivity).
      destruct (IH W [] st) as [S2 R]; [exact E | cbn [base]; rewrite (rule_rule _ _ _ _ Hin); exact L|].
      exists S2. eapply h_out; [reflexivity | exact Hs | exact Hin | exact R].
    + injection E as <- E. cbn [base] in L. destruct (IH W S1 st E L) as [S2 R]. exists S2. apply h_ret; assumption.
  - congruence.
Qed.

Lemma alternative_rule d i t : alternative d i = Some t -> rule_of t = rule_of (decision_state d).
Proof.
  destruct i as [|j]; [discriminate|]. unfold alternative, alternatives. destruct (nth_error (edges (decision_state d)) j) as [[t'| |]|] eqn:E; try discriminate.
  intros [= <-]. apply nth_error_In in E. apply (eps_rule _ _ E).
Qed.

Lemma alive_wild d st u i : linked (rule_of (decision_state d)) st -> alive false d (map return_state st) u i -> alive true d [] u i.
Proof.
  intros L (s & S' & t & Et & R). destruct (reach_wild _ _ _ _ _ _ R eq_refl [] st eq_refl) as [S2 R2].
  - cbn [base]. rewrite (alternative_rule _ _ _ Et). exact L.
  - exists s, S2, t. auto.
Qed.

Lemma finish_alive d st u v i : can_finish d st (u ++ v) i -> alive false d (map return_state st) u i.
Proof. intros (t & Et & P). destruct (path_split _ _ _ P u v eq_refl) as (s' & S' & R & _ & _). exists s', S', t. auto. Qed.

Lemma alternative_range d i t : alternative d i = Some t -> 1 <= i <= length (alternatives d).
Proof.
  intros E. destruct i as [|j]; [discriminate|]. unfold alternative in E.
  destruct (nth_error (alternatives d) j) as [e|] eqn:En; [|discriminate].
  assert (nth_error (alternatives d) j <> None) as Q by congruence. apply nth_error_Some in Q. lia.
Qed.

(** ** The answers are right *)
Theorem C61_answers d st w i o : linked (rule_of (decision_state d)) st ->
  can_finish d st w i -> (forall j, j < i -> ~ can_finish d st w j) -> answer d st w o -> o = Some i.
Proof.
  intros L F Least A. destruct A as [u v k -> [_ H] | u v o -> N1 _ | o A].
  - f_equal. symmetry. apply H. apply (alive_wild _ st); [exact L|]. eapply finish_alive. exact F.
  - exfalso. apply (N1 i). apply (alive_wild _ st); [exact L|]. eapply finish_alive. exact F.
  - destruct A as [u v k -> H | k Fk Lk | u v o -> N1 _ | o N1 _].
    + destruct (second_stage _ _ _ _ _ _ H F) as [L1 F1]. f_equal. destruct (Nat.eq_dec k i) as [E|N]; [exact E|].
      exfalso. apply (Least k); [lia | exact F1].
    + f_equal. destruct (Nat.lt_trichotomy k i) as [C|[C|C]]; [|exact C|].
      * exfalso. exact (Least k C Fk).
      * exfalso. exact (Lk i C F).
    + exfalso. apply (N1 i). eapply finish_alive. exact F.
    + exfalso. exact (N1 i F).
Qed.

Lemma answer_range d st w i : answer d st w (Some i) -> 1 <= i <= length (alternatives d).
Proof.
  intros A. remember (Some i) as o eqn:E. destruct A as [u v k _ [(s & S' & t & Et & _) _] | u v o _ _ R | o A].
  - injection E as ->. eapply alternative_range. exact Et.
  - apply R. exact E.
  - destruct A as [u v k _ [(s & S' & t & Et & _) _] | k (t & Et & _) _ | u v o _ _ R | o _ R].
    + injection E as ->. eapply alternative_range. exact Et.
    + injection E as ->. eapply alternative_range. exact Et.
    + apply R. exact E.
    + apply R. exact E.
Qed.

(** Every answer is one that the generated parser can rely on. *)
Theorem C61_answers_are_right d st w o : answer d st w o -> right d st w o.
Proof.
  intros A. split.
  - intros i ->. exact (answer_range _ _ _ _ A).
  - intros i L F Least. exact (C61_answers d st w i o L F Least A).
Qed.

Theorem C61_all_star_is_enough rt : all_star rt -> runtime_ok rt.
Proof.
  intros [P Q]. split.
  - intros d st w. apply C61_answers_are_right. apply P.
  - intros n t H. destruct (sync_fails rt n t) eqn:E; [|reflexivity]. apply Q in E. destruct E as [E1 E2]. destruct H; contradiction.
Qed.
