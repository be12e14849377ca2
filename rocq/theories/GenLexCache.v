(** C62, continued: calls that share the lexer's cache.

    All lexers of a process use the same staticData.decisionToDFA (parser/rfc5322_lexer.go:205-209, :227): a
    graph, one per mode, in which LexerATNSimulator.Match stores what it computes.  Its nodes stand for sets of
    configurations, its edges for the next character.

    Model: as in GenCache.v, every read of an edge and every addition is one step, other threads may do anything
    between two steps, an addition may overwrite.  Edges are only stored for ASCII characters.  A thread makes the
    tokens of one input, one after the other.  Not modelled: merged stacks of configurations, the positions that
    the tokens carry. *)
From Coq Require Import List NArith ZArith Bool Arith Lia.
From Verif Require Import Lexer Utf8 LexFacts CharFacts GenAtn GenRun GenLex.
Import ListNotations.

(** ** The cache *)

(** Configurations: a state for a rule. *)
(* /repo: ANTLR runtime, LexerATNConfig *)
Definition lconfigs := nat -> N -> Prop.

(** Rule [i] can read [u] from one of its configurations. *)
(* /repo: ANTLR runtime, LexerATNSimulator.getReachableConfigSet *)
Definition lleads (C : lconfigs) (u : list rune) (i : nat) : Prop := exists s, C i s /\ lread s u.

(* /repo: ANTLR runtime, DFAState *)
Record lnode : Type := mkLNode {
  lcfg : lconfigs;                  (* configs *)
  laccept : option nat }.           (* the rule that is predicted, if isAcceptState *)

(* /repo: ANTLR runtime, DFAState.edges; [LErr] is ATNSimulatorError *)
Inductive ltarget : Type := LTo (id : nat) | LErr.

(* /repo: parser/rfc5322_lexer.go:205-209 *)
Record lcache : Type := mkLCache {
  lnodes : list lnode;
  lroot : option nat;                          (* s0 of the only mode *)
  llink : nat -> rune -> option ltarget }.

(* /repo: parser/rfc5322_lexer.go:205-209 *)
Definition empty_lcache : lcache := mkLCache [] None (fun _ _ => None).

(* /repo: ANTLR runtime, LexerATNSimulator.addDFAState *)
Definition add_lnode (c : lcache) (nd : lnode) : lcache := mkLCache (lnodes c ++ [nd]) (lroot c) (llink c).
(* /repo: ANTLR runtime, DFA.setS0 *)
Definition set_lroot (c : lcache) (id : nat) : lcache := mkLCache (lnodes c) (Some id) (llink c).
(* /repo: ANTLR runtime, LexerATNSimulator.addDFAEdge: only between MinDFAEdge and MaxDFAEdge *)
Definition set_llink (c : lcache) (id : nat) (x : rune) (g : ltarget) : lcache :=
  mkLCache (lnodes c) (lroot c)
    (fun id' x' => if Nat.eqb id' id && N.eqb x' x && (x <? 128)%N then Some g else llink c id' x').

(** What the simulator computes; only what can be read from the configurations is fixed. *)
(* /repo: ANTLR runtime, LexerATNSimulator.computeStartState *)
Definition lstarts (C : lconfigs) : Prop := forall u i, lleads C u i <-> exists t, rule_reads i u t.
(* /repo: ANTLR runtime, LexerATNSimulator.computeTargetState: the reach set, which is not empty *)
Definition lcontinues (C : lconfigs) (x : rune) (C' : lconfigs) : Prop :=
  (forall u i, lleads C' u i <-> lleads C (x :: u) i) /\ exists u i, lleads C (x :: u) i.
(* /repo: ANTLR runtime, LexerATNSimulator.computeTargetState: the reach set is empty *)
Definition lbreaks (C : lconfigs) (x : rune) : Prop := forall u i, ~ lleads C (x :: u) i.
(* /repo: ANTLR runtime, LexerATNSimulator.addDFAState: firstConfigWithRuleStopState *)
Definition lmarked (nd : lnode) : Prop :=
  match laccept nd with
  | Some i => lleads (lcfg nd) [] i /\ forall j, lleads (lcfg nd) [] j -> i <= j
  | None => forall j, ~ lleads (lcfg nd) [] j
  end.

(** ** Threads *)

(** Before a token; in the simulator at node [id], after the characters [u] of the token, before [v], with the
    last accept state that was passed (rule, text, rest); after the simulator; at the end.  [acc]: the tokens
    that have been made. *)
(* /repo: ANTLR runtime, BaseLexer.NextToken; LexerATNSimulator.execATN; failOrAccept *)
Inductive lthread : Type :=
| LStart (rs : list rune) (acc : list tok)
| LRead (id : nat) (u v : list rune) (acc : list tok) (best : option (nat * list rune * list rune))
| LStop (v : list rune) (acc : list tok) (best : option (nat * list rune * list rune))
| LDone (w : list tok).

(* /repo: ANTLR runtime, LexerATNSimulator.captureSimState *)
Definition arrive (nd : lnode) (u v : list rune) (best : option (nat * list rune * list rune)) : option (nat * list rune * list rune) :=
  match laccept nd with Some i => Some (i, u, v) | None => best end.

(** The token type of rule [i]. *)
(* /repo: parser/rfc5322_lexer.go:202-203 (ruleToTokenType) *)
Definition rule_type (i : nat) (t : ttype) : Prop := exists s, nth_error (a_starts lexer_atn) i = Some (s, Z.of_N t).

(** A character that begins no token (see Lexer.recovery). *)
(* /repo: ANTLR runtime, BaseLexer.Recover *)
Definition bad_char (m : recovery) (x : rune) : list tok := match m with SkipBad => [] | EmitBad => [mkTok T_Invalid x] end.

(* /repo: ANTLR runtime, BaseLexer.NextToken, LexerATNSimulator.Match, matchATN, execATN, failOrAccept *)
Inductive lstep (m : recovery) : lcache -> lthread -> lcache -> lthread -> Prop :=
| l_root : forall c rs acc id nd, lroot c = Some id -> nth_error (lnodes c) id = Some nd ->
    lstep m c (LStart rs acc) c (LRead id [] rs acc (arrive nd [] rs None))
| l_old_root : forall c rs acc id nd, nth_error (lnodes c) id = Some nd -> lstarts (lcfg nd) ->
    lstep m c (LStart rs acc) (set_lroot c id) (LRead id [] rs acc (arrive nd [] rs None))
| l_new_root : forall c rs acc nd, lstarts (lcfg nd) -> lmarked nd ->
    lstep m c (LStart rs acc) (set_lroot (add_lnode c nd) (length (lnodes c)))
      (LRead (length (lnodes c)) [] rs acc (arrive nd [] rs None))
| l_edge : forall c id u x v acc best id' nd', llink c id x = Some (LTo id') -> nth_error (lnodes c) id' = Some nd' ->
    lstep m c (LRead id u (x :: v) acc best) c (LRead id' (u ++ [x]) v acc (arrive nd' (u ++ [x]) v best))
| l_edge_err : forall c id u x v acc best, llink c id x = Some LErr ->
    lstep m c (LRead id u (x :: v) acc best) c (LStop (x :: v) acc best)
| l_link : forall c id u x v acc best nd id' nd', nth_error (lnodes c) id = Some nd -> nth_error (lnodes c) id' = Some nd' ->
    lcontinues (lcfg nd) x (lcfg nd') ->
    lstep m c (LRead id u (x :: v) acc best) (set_llink c id x (LTo id')) (LRead id' (u ++ [x]) v acc (arrive nd' (u ++ [x]) v best))
| l_grow : forall c id u x v acc best nd nd', nth_error (lnodes c) id = Some nd -> lcontinues (lcfg nd) x (lcfg nd') -> lmarked nd' ->
    lstep m c (LRead id u (x :: v) acc best) (set_llink (add_lnode c nd') id x (LTo (length (lnodes c))))
      (LRead (length (lnodes c)) (u ++ [x]) v acc (arrive nd' (u ++ [x]) v best))
| l_break : forall c id u x v acc best nd, nth_error (lnodes c) id = Some nd -> lbreaks (lcfg nd) x ->
    lstep m c (LRead id u (x :: v) acc best) (set_llink c id x LErr) (LStop (x :: v) acc best)
| l_end : forall c id u acc best, lstep m c (LRead id u [] acc best) c (LStop [] acc best)
| l_token : forall c v acc i x rest t, rule_type i t ->
    lstep m c (LStop v acc (Some (i, [x], rest))) c (LStart rest (acc ++ [mkTok t x]))
| l_bad : forall c x v acc, lstep m c (LStop (x :: v) acc None) c (LStart v (acc ++ bad_char m x))
| l_eof : forall c acc, lstep m c (LStop [] acc None) c (LDone (acc ++ [eof_tok]))
| l_hit_eof : forall c acc, lstep m c (LStart [] acc) c (LDone (acc ++ [eof_tok])).

(** ** What holds of the cache at all times *)
Record lsound (c : lcache) : Prop := mkLSound {
  ls_root : forall id, lroot c = Some id -> exists nd, nth_error (lnodes c) id = Some nd /\ lstarts (lcfg nd);
  ls_edge : forall id x id', llink c id x = Some (LTo id') ->
    exists nd nd', nth_error (lnodes c) id = Some nd /\ nth_error (lnodes c) id' = Some nd' /\ lcontinues (lcfg nd) x (lcfg nd');
  ls_err : forall id x, llink c id x = Some LErr -> exists nd, nth_error (lnodes c) id = Some nd /\ lbreaks (lcfg nd) x;
  ls_marked : forall id nd, nth_error (lnodes c) id = Some nd -> lmarked nd;
  ls_ascii : forall id x g, llink c id x = Some g -> (x < 128)%N }.

Lemma empty_lsound : lsound empty_lcache.
Proof. constructor; cbn; try discriminate. intros [|id] nd [=]. Qed.

(** Nodes are only added. *)
Definition lextends (c c' : lcache) : Prop := forall id nd, nth_error (lnodes c) id = Some nd -> nth_error (lnodes c') id = Some nd.

Lemma lextends_refl c : lextends c c.
Proof. intros id nd H. exact H. Qed.

Lemma ladd_extends c nd : lextends c (add_lnode c nd).
Proof. intros id nd0 H. cbn. rewrite nth_error_app1; [exact H|]. apply nth_error_Some. congruence. Qed.

Lemma ladd_new c nd : nth_error (lnodes (add_lnode c nd)) (length (lnodes c)) = Some nd.
Proof. cbn. rewrite nth_error_app2, Nat.sub_diag; [reflexivity | lia]. Qed.

Lemma lsound_add c nd : lsound c -> lmarked nd -> lsound (add_lnode c nd).
Proof.
  intros [H1 H2 H3 H4 H5] D. pose proof (ladd_extends c nd) as X. constructor.
  - intros id E. destruct (H1 id E) as (n0 & E0 & S0). exists n0. auto.
  - intros id t id' E. destruct (H2 id t id' E) as (n1 & n2 & E1 & E2 & C). exists n1, n2. auto.
  - intros id t E. destruct (H3 id t E) as (n1 & E1 & C). exists n1. auto.
  - intros id n0 E. cbn in E. destruct (Nat.lt_ge_cases id (length (lnodes c))) as [L|L].
    + rewrite nth_error_app1 in E by exact L. exact (H4 _ _ E).
    + rewrite nth_error_app2 in E by exact L. destruct (id - length (lnodes c)) as [|m]; [injection E as <-; exact D | destruct m; discriminate].
  - exact H5.
Qed.

Lemma lsound_root c id nd : lsound c -> nth_error (lnodes c) id = Some nd -> lstarts (lcfg nd) -> lsound (set_lroot c id).
Proof.
  intros [H1 H2 H3 H4 H5] E S0. constructor; auto. cbn. intros id' [= <-]. exists nd. auto.
Qed.

Lemma llink_cases c id x g id0 x0 g0 : llink (set_llink c id x g) id0 x0 = Some g0 ->
  (id0 = id /\ x0 = x /\ g0 = g /\ (x < 128)%N) \/ llink c id0 x0 = Some g0.
Proof.
  cbn [set_llink llink]. destruct (Nat.eqb_spec id0 id) as [->|]; destruct (N.eqb_spec x0 x) as [->|]; cbn [andb]; auto.
  destruct (N.ltb_spec x 128); auto. intros [= <-]. left. auto.
Qed.

Lemma lsound_link c id x id' nd nd' : lsound c -> nth_error (lnodes c) id = Some nd -> nth_error (lnodes c) id' = Some nd' ->
  lcontinues (lcfg nd) x (lcfg nd') -> lsound (set_llink c id x (LTo id')).
Proof.
  intros [H1 H2 H3 H4 H5] E E' S0. constructor; auto.
  - intros id0 x0 id1 L. apply llink_cases in L as [(-> & -> & [= ->] & _)|L]; [|exact (H2 _ _ _ L)]. exists nd, nd'. auto.
  - intros id0 x0 L. apply llink_cases in L as [(_ & _ & [=] & _)|L]. exact (H3 _ _ L).
  - intros id0 x0 g L. apply llink_cases in L as [(_ & -> & _ & B)|L]; [exact B | exact (H5 _ _ _ L)].
Qed.

Lemma lsound_break c id x nd : lsound c -> nth_error (lnodes c) id = Some nd -> lbreaks (lcfg nd) x -> lsound (set_llink c id x LErr).
Proof.
  intros [H1 H2 H3 H4 H5] E S0. constructor; auto.
  - intros id0 x0 id1 L. apply llink_cases in L as [(_ & _ & [=] & _)|L]. exact (H2 _ _ _ L).
  - intros id0 x0 L. apply llink_cases in L as [(-> & -> & _ & _)|L]; [|exact (H3 _ _ L)]. exists nd. auto.
  - intros id0 x0 g L. apply llink_cases in L as [(_ & -> & _ & B)|L]; [exact B | exact (H5 _ _ _ L)].
Qed.

(** ** What holds of a thread at all times *)

(** At a node of the cache it is where the characters of the token lead. *)
Definition at_lnode (c : lcache) (id : nat) (u : list rune) : Prop :=
  exists nd, nth_error (lnodes c) id = Some nd /\ forall v i, lleads (lcfg nd) v i <-> exists t, rule_reads i (u ++ v) t.

(** Rule [i] is the first that reads [u]. *)
Definition first_rule (i : nat) (u : list rune) : Prop :=
  (exists t, rule_reads i u t) /\ forall j t, rule_reads j u t -> i <= j.

(** The rest of the tokens is what the rest of the input gives. *)
Definition left (m : recovery) (w0 acc : list tok) (rs : list rune) : Prop := w0 = acc ++ lex m rs.

Definition lfine (m : recovery) (w0 : list tok) (c : lcache) (t : lthread) : Prop :=
  match t with
  | LStart rs acc => left m w0 acc rs
  | LRead id u v acc best => left m w0 acc (u ++ v) /\ at_lnode c id u /\
      (u = [] /\ best = None \/ exists x i, u = [x] /\ best = Some (i, [x], v) /\ first_rule i [x])
  | LStop v acc best =>
      match best with
      | None => left m w0 acc v /\ match v with [] => True | x :: _ => forall i t, ~ rule_reads i [x] t end
      | Some (i, u, rest) => exists x, u = [x] /\ left m w0 acc (x :: rest) /\ first_rule i [x]
      end
  | LDone w => w = w0
  end.

Lemma lfine_extends m w0 c c' t : lextends c c' -> lfine m w0 c t -> lfine m w0 c' t.
Proof.
  intros X. destruct t as [rs acc|id u v acc best|v acc best|w]; cbn [lfine]; auto. intros (E & (nd & En & L) & H). split; [exact E|]. split; [|exact H].
  exists nd. split; [apply X; exact En | exact L].
Qed.

Lemma reads_one i u t : rule_reads i u t -> exists x, u = [x].
Proof. intros H. apply rule_reads_row in H as (x & rs & -> & _). eauto. Qed.

Lemma reads_not_nil i t : ~ rule_reads i [] t.
Proof. intros H. apply reads_one in H as (x & [=]). Qed.

Lemma at_lstart c id nd : nth_error (lnodes c) id = Some nd -> lstarts (lcfg nd) -> at_lnode c id [].
Proof. intros E S0. exists nd. split; [exact E|]. exact S0. Qed.

Lemma start_none nd : lstarts (lcfg nd) -> lmarked nd -> laccept nd = None.
Proof.
  intros S0 M. unfold lmarked in M. destruct (laccept nd) as [i|]; [|reflexivity]. destruct M as [M _]. apply S0 in M as (t & R). destruct (reads_not_nil _ _ R).
Qed.

Lemma at_lnext c c' id id' u x nd nd' : lextends c c' -> nth_error (lnodes c) id = Some nd -> nth_error (lnodes c') id' = Some nd' ->
  lcontinues (lcfg nd) x (lcfg nd') -> at_lnode c id u -> at_lnode c' id' (u ++ [x]).
Proof.
  intros X E E' [C _] (n0 & E0 & L). assert (n0 = nd) as -> by congruence. exists nd'. split; [exact E'|]. intros v i.
  rewrite (C v i), L, <- app_assoc. reflexivity.
Qed.

(** An edge can only be taken with the first character, and then it leads to an accept state. *)
Lemma next_first c id u x nd nd' : nth_error (lnodes c) id = Some nd -> at_lnode c id u -> lcontinues (lcfg nd) x (lcfg nd') -> lmarked nd' ->
  u = [] /\ exists i, laccept nd' = Some i /\ first_rule i [x].
Proof.
  intros E (n0 & E0 & L) [C (y & j & N0)] M. assert (n0 = nd) as -> by congruence. apply L in N0 as (t & R).
  destruct (reads_one _ _ _ R) as (z & Ez). destruct u as [|a u]; [|destruct u; discriminate]. cbn [app] in *. injection Ez as -> ->. split; [reflexivity|].
  assert (Q : forall i, lleads (lcfg nd') [] i <-> exists t, rule_reads i [z] t) by (intros i; rewrite C; apply L).
  unfold lmarked in M. destruct (laccept nd') as [i|].
  - exists i. split; [reflexivity|]. destruct M as [M1 M2]. split; [apply Q; exact M1|]. intros k t' Hk. apply M2, Q. eauto.
  - exfalso. apply (M j), Q. eauto.
Qed.

Lemma reads_type i x t t' : rule_reads i [x] t -> rule_type i t' -> t' = t.
Proof.
  intros (s & _ & _ & E) (s' & E'). rewrite E in E'. injection E' as _ E'. apply N2Z.inj in E'. symmetry. exact E'.
Qed.

Lemma first_lexeme i x t rest : first_rule i [x] -> rule_reads i [x] t -> lexeme (x :: rest) t [x] rest.
Proof.
  intros [_ F] R. exists i. split; [reflexivity|]. split; [discriminate|]. split; [exact R|]. intros j u' rest' t' E Hu R'.
  destruct (reads_one _ _ _ R') as (y & ->). cbn [app] in E. injection E as <- <-. split; [apply le_n|]. intros _. exact (F j t' R').
Qed.

Lemma lex_token m x rest t : lex_rune x = Some t -> lex m (x :: rest) = mkTok t x :: lex m rest.
Proof. intros H. unfold lex. cbn [flat_map]. unfold lex1 at 1. rewrite H. reflexivity. Qed.

Lemma lex_bad m x rest : lex_rune x = None -> lex m (x :: rest) = bad_char m x ++ lex m rest.
Proof. intros H. unfold lex. cbn [flat_map]. unfold lex1 at 1. rewrite H. rewrite <- app_assoc. destruct m; reflexivity. Qed.

Lemma no_rule x : (forall i t, ~ rule_reads i [x] t) -> lex_rune x = None.
Proof.
  intros H. destruct (lex_rune x) as [t|] eqn:E; [|reflexivity]. exfalso.
  assert (L : lexeme [x] t [x] []) by (apply lexeme_iff; auto). destruct L as (i & _ & _ & R & _). exact (H i t R).
Qed.

Lemma break_stop m w0 c id u x v acc best nd : nth_error (lnodes c) id = Some nd -> lbreaks (lcfg nd) x ->
  lfine m w0 c (LRead id u (x :: v) acc best) -> lfine m w0 c (LStop (x :: v) acc best).
Proof.
  intros E B (L & (n0 & E0 & Q) & H). assert (n0 = nd) as -> by congruence. cbn [lfine]. destruct H as [(-> & ->)|(y & i & -> & -> & F)].
  - cbn [app] in *. split; [exact L|]. intros i t R. apply (B [] i), Q. eauto.
  - exists y. auto.
Qed.

(** One step keeps the cache sound and the thread fine. *)
Lemma lstep_keeps m c t c' t' : lstep m c t c' t' -> lsound c -> lsound c' /\ lextends c c' /\ forall w0, lfine m w0 c t -> lfine m w0 c' t'.
Proof.
  intros H K. destruct H as [c rs acc id nd E En | c rs acc id nd En S0 | c rs acc nd S0 M | c id u x v acc best id' nd' E En | c id u x v acc best E
    | c id u x v acc best nd id' nd' E E' C | c id u x v acc best nd nd' E C M | c id u x v acc best nd E B | c id u acc best
    | c v acc i x rest t T | c x v acc | c acc | c acc].
  - split; [exact K|]. split; [apply lextends_refl|]. intros w0 H. cbn [lfine] in *. destruct (ls_root _ K _ E) as (n0 & E0 & S0).
    assert (n0 = nd) as -> by congruence. split; [exact H|]. split; [apply (at_lstart c id nd); assumption|]. left. split; [reflexivity|].
    unfold arrive. rewrite (start_none nd S0 (ls_marked _ K _ _ En)). reflexivity.
  - split; [eapply lsound_root; eassumption|]. split; [intros ? ? HH; exact HH|]. intros w0 H. cbn [lfine] in *. split; [exact H|].
    split; [apply (at_lstart _ id nd); assumption|]. left. split; [reflexivity|].
    unfold arrive. rewrite (start_none nd S0 (ls_marked _ K _ _ En)). reflexivity.
  - assert (K1 : lsound (add_lnode c nd)) by (apply lsound_add; assumption). split; [eapply lsound_root; [exact K1 | apply ladd_new | exact S0]|].
    split; [apply ladd_extends|]. intros w0 H. cbn [lfine] in *. split; [exact H|].
    split; [apply (at_lstart _ _ nd); [apply ladd_new | exact S0]|]. left. split; [reflexivity|].
    unfold arrive. rewrite (start_none nd S0 M). reflexivity.
  - split; [exact K|]. split; [apply lextends_refl|]. intros w0 (L & A & _). destruct (ls_edge _ K _ _ _ E) as (n1 & n2 & E1 & E2 & C).
    assert (n2 = nd') as -> by congruence. destruct (next_first c id u x n1 nd' E1 A C (ls_marked _ K _ _ En)) as (-> & i & Ea & F).
    cbn [lfine]. cbn [app] in *. split; [exact L|]. split; [exact (at_lnext c c id id' [] x n1 nd' (lextends_refl c) E1 E2 C A)|].
    right. exists x, i. unfold arrive. rewrite Ea. auto.
  - split; [exact K|]. split; [apply lextends_refl|]. intros w0. destruct (ls_err _ K _ _ E) as (nd & En & B). exact (break_stop m w0 c id u x v acc best nd En B).
  - split; [eapply lsound_link; eassumption|]. split; [intros ? ? HH; exact HH|]. intros w0 (L & A & _).
    destruct (next_first c id u x nd nd' E A C (ls_marked _ K _ _ E')) as (-> & i & Ea & F).
    cbn [lfine]. cbn [app] in *. split; [exact L|]. split; [exact (at_lnext c _ id id' [] x nd nd' (fun _ _ HH => HH) E E' C A)|].
    right. exists x, i. unfold arrive. rewrite Ea. auto.
  - assert (K1 : lsound (add_lnode c nd')) by (apply lsound_add; assumption). pose proof (ladd_extends c nd') as X.
    split; [eapply lsound_link; [exact K1 | apply X; exact E | apply ladd_new | exact C]|]. split; [exact X|]. intros w0 (L & A & _).
    destruct (next_first c id u x nd nd' E A C M) as (-> & i & Ea & F).
    cbn [lfine]. cbn [app] in *. split; [exact L|]. split; [exact (at_lnext c _ id _ [] x nd nd' X E (ladd_new c nd') C A)|].
    right. exists x, i. unfold arrive. rewrite Ea. auto.
  - split; [eapply lsound_break; eassumption|]. split; [intros ? ? HH; exact HH|]. intros w0 H. exact (break_stop m w0 c id u x v acc best nd E B H).
  - split; [exact K|]. split; [apply lextends_refl|]. intros w0 (L & _ & H). cbn [lfine]. destruct H as [(-> & ->)|(y & i & -> & -> & F)].
    + split; [exact L | exact Logic.I].
    + exists y. auto.
  - split; [exact K|]. split; [apply lextends_refl|]. intros w0 (y & [= <-] & L & F). cbn [lfine]. destruct F as [(t' & R) F].
    assert (t = t') as -> by (exact (reads_type i x t' t R T)). assert (Q : lex_rune x = Some t').
    { apply (proj1 (lexeme_iff x rest t' [x] rest)). apply (first_lexeme i); [split; eauto | exact R]. }
    unfold left in *. rewrite <- app_assoc. cbn [app]. rewrite L, (lex_token m x rest t' Q). reflexivity.
  - split; [exact K|]. split; [apply lextends_refl|]. intros w0 (L & H). cbn [lfine]. unfold left in *. rewrite L, (lex_bad m x v (no_rule x H)), app_assoc. reflexivity.
  - split; [exact K|]. split; [apply lextends_refl|]. intros w0 (L & _). cbn [lfine]. unfold left in *. rewrite L. reflexivity.
  - split; [exact K|]. split; [apply lextends_refl|]. intros w0 L. cbn [lfine] in *. unfold left in *. rewrite L. reflexivity.
Qed.

(** ** How many steps are left *)
Definition lmost (t : lthread) : nat :=
  match t with
  | LStart rs _ => 4 * length rs + 3
  | LRead _ u v _ _ => 4 * length v + match u with [] => 2 | _ => 5 end
  | LStop v _ best => match best with Some (_, _, rest) => 4 * length rest + 4 | None => 4 * length v + 1 end
  | LDone _ => 0
  end.

Lemma lstep_less m w0 c t c' t' : lstep m c t c' t' -> lsound c -> lfine m w0 c t -> lmost t' < lmost t.
Proof.
  intros H K F. destruct H as [c rs acc id nd E En | c rs acc id nd En S0 | c rs acc nd S0 M | c id u x v acc best id' nd' E En | c id u x v acc best E
    | c id u x v acc best nd id' nd' E E' C | c id u x v acc best nd nd' E C M | c id u x v acc best nd E B | c id u acc best
    | c v acc i x rest t T | c x v acc | c acc | c acc]; cbn [lmost length]; try lia.
  - destruct F as (_ & A & _). destruct (ls_edge _ K _ _ _ E) as (n1 & n2 & E1 & E2 & C). assert (n2 = nd') as -> by congruence.
    destruct (next_first c id u x n1 nd' E1 A C (ls_marked _ K _ _ En)) as (-> & _). cbn [app]. lia.
  - destruct F as (_ & _ & [(-> & ->)|(y & i & -> & -> & _)]); cbn [length]; lia.
  - destruct F as (_ & A & _). destruct (next_first c id u x nd nd' E A C (ls_marked _ K _ _ E')) as (-> & _). cbn [app]. lia.
  - destruct F as (_ & A & _). destruct (next_first c id u x nd nd' E A C M) as (-> & _). cbn [app]. lia.
  - destruct F as (_ & _ & [(-> & ->)|(y & i & -> & -> & _)]); cbn [length]; lia.
  - destruct F as (_ & _ & [(-> & ->)|(y & i & -> & -> & _)]); cbn [length]; lia.
Qed.

(** ** A thread is never blocked *)

(** What computeStartState and computeTargetState store. *)
(* /repo: ANTLR runtime, LexerATNSimulator.computeStartState *)
Definition lstart_cfg : lconfigs := fun i s => nth_error (ledges mode_start) i = Some (EEps s) /\ exists t, nth_error (a_starts lexer_atn) i = Some (s, Z.of_N t).
(** [lgoes s u s']: the network goes from [s] to [s'] and reads [u]. *)
(* /repo: ANTLR runtime, LexerATNSimulator.closure *)
Inductive lgoes : N -> list rune -> N -> Prop :=
| lg_here : forall s, lgoes s [] s
| lg_eps : forall s t u s', In (EEps t) (ledges s) -> lgoes t u s' -> lgoes s u s'
| lg_tok : forall s rs t c u s', In (ETok rs t) (ledges s) -> in_ranges (Z.of_N c) rs = true -> lgoes t u s' -> lgoes s (c :: u) s'.
(* /repo: ANTLR runtime, LexerATNSimulator.getReachableConfigSet *)
Definition lafter (C : lconfigs) (x : rune) : lconfigs := fun i s => exists s0, C i s0 /\ lgoes s0 [x] s.

Lemma lstarts_here : lstarts lstart_cfg.
Proof.
  intros u i. split.
  - intros (s & (E & t & T) & R). exists t, s. auto.
  - intros (t & s & E & R & T). exists s. split; [split; eauto | exact R].
Qed.

Lemma lgoes_read s u s' v : lgoes s u s' -> lread s' v -> lread s (u ++ v).
Proof.
  induction 1 as [s | s t u s' Hi _ IH | s rs t c u s' Hi Hr _ IH]; intros R; cbn [app].
  - exact R.
  - eapply lr_eps; eauto.
  - eapply lr_tok; eauto.
Qed.

Lemma lread_split s w : lread s w -> forall x u, w = x :: u -> exists s', lgoes s [x] s' /\ lread s' u.
Proof.
  induction 1 as [s Hs | s t w Hi _ IH | s rs t c w Hi Hr R IH]; intros x u E.
  - discriminate.
  - destruct (IH _ _ E) as (s' & G & R). exists s'. split; [eapply lg_eps; eassumption | exact R].
  - injection E as -> ->. exists t. split; [eapply lg_tok; [exact Hi | exact Hr | constructor] | exact R].
Qed.

Lemma lafter_continues C x u i : lleads (lafter C x) u i <-> lleads C (x :: u) i.
Proof.
  split.
  - intros (s & (s0 & H & G) & R). exists s0. split; [exact H|]. exact (lgoes_read s0 [x] s u G R).
  - intros (s & H & R). destruct (lread_split _ _ R x u eq_refl) as (s' & G & R'). exists s'. split; [exists s; auto | exact R'].
Qed.

(** The rule that reads a character first, if there is one. *)
Lemma some_rule x : (forall i t, ~ rule_reads i [x] t) \/ exists i, first_rule i [x].
Proof.
  destruct (lex_rune x) as [t|] eqn:E.
  - right. assert (L : lexeme [x] t [x] []) by (apply lexeme_iff; auto). destruct L as (i & _ & _ & R & M). exists i. split; [eauto|].
    intros j t' Rj. apply (M j [x] [] t'); [reflexivity | discriminate | exact Rj | reflexivity].
  - left. intros i t R. apply rule_reads_row in R as (y & rs & [= <-] & En & Hr). rewrite <- find_row_lex in E.
    destruct (find_row_nth x rows) as [[_ H]|(j & t' & rs' & H & _)]; [|congruence]. rewrite (H _ _ _ En) in Hr. discriminate.
Qed.

Lemma lnot_blocked m w0 c t : lsound c -> lfine m w0 c t -> (exists w, t = LDone w) \/ exists c' t', lstep m c t c' t'.
Proof.
  intros K F. destruct t as [rs acc|id u v acc best|v acc best|w].
  - right. set (nd := mkLNode lstart_cfg None). assert (M : lmarked nd).
    { intros j Hj. apply lstarts_here in Hj as (t & R). exact (reads_not_nil _ _ R). }
    eexists _, _. apply (l_new_root m c rs acc nd lstarts_here M).
  - right. destruct v as [|x v]; [eexists _, _; apply l_end|]. destruct F as (_ & (nd & En & Q) & H).
    destruct H as [(-> & ->)|(y & i & -> & -> & _)].
    + destruct (some_rule x) as [H|(i & (t & R) & H)].
      * eexists _, _. apply (l_break m c id [] x v acc None nd En). intros u i Hu. apply Q in Hu as (t & R). destruct (reads_one _ _ _ R) as (z & [= -> ->]). exact (H i t R).
      * set (nd' := mkLNode (lafter (lcfg nd) x) (Some i)). eexists _, _. apply (l_grow m c id [] x v acc None nd nd' En).
        -- split; [apply lafter_continues|]. exists [], i. apply Q. eauto.
        -- cbn [lmarked laccept nd' lcfg]. split; [apply lafter_continues, Q; eauto|]. intros j Hj. apply lafter_continues, Q in Hj as (t' & Rj). exact (H j t' Rj).
    + eexists _, _. apply (l_break m c id [y] x v acc _ nd En). intros u j Hu. apply Q in Hu as (t & R). destruct (reads_one _ _ _ R) as (z & [=]).
  - right. destruct best as [[[i u] rest]|].
    + destruct F as (x & -> & _ & (t & s & E & R & T) & _). eexists _, _. apply (l_token m c v acc i x rest t). exists s. exact T.
    + destruct v as [|x v]; eexists _, _; [apply l_eof | apply l_bad].
  - left. eauto.
Qed.

(** ** No dead ends
    The steps ask whether any text can be read from a set of configurations, the code whether the set is empty.
    In this network this is the same: every state it can be in is on a way to a stop state. *)
Definition lchain (s : N) : bool :=
  match ledges s with
  | [EEps a] => match ledges a with
      | [ETok rs b] => match ledges b with
          | [EEps e] => match ledges e with [] => lstop e && existsb (fun r => (fst r <=? snd r)%Z && (0 <=? fst r)%Z) rs | _ => false end
          | _ => false end
      | _ => false end
  | _ => false end.

Lemma lchains : forallb (fun x => match x with EEps s => lchain s | _ => false end) (ledges mode_start) = true.
Proof. vm_compute. reflexivity. Qed.

Lemma no_dead_ends i s u s' : nth_error (ledges mode_start) i = Some (EEps s) -> lgoes s u s' -> exists v, lread s' v.
Proof.
  intros E. apply nth_error_In in E. pose proof lchains as L. rewrite forallb_forall in L. specialize (L _ E). cbn beta iota in L. clear E. unfold lchain in L.
  destruct (ledges s) as [|[a| |] [|]] eqn:Es; try discriminate. destruct (ledges a) as [|[|rs b|] [|]] eqn:Ea; try discriminate.
  destruct (ledges b) as [|[e| |] [|]] eqn:Eb; try discriminate. destruct (ledges e) eqn:Ee; try discriminate.
  apply andb_true_iff in L as [Le Lr]. apply existsb_exists in Lr as ((lo & hi) & Hin & Hb). cbn [fst snd] in Hb. apply andb_true_iff in Hb as [Hb H0].
  assert (R0 : lread e []) by (apply lr_stop; exact Le).
  assert (R1 : lread b []) by (apply (lr_eps b e); [rewrite Eb; left; reflexivity | exact R0]).
  assert (R2 : lread a [Z.to_N lo]).
  { apply (lr_tok a rs b); [rewrite Ea; left; reflexivity | | exact R1]. rewrite Z2N.id by (apply Z.leb_le; exact H0). unfold in_ranges. apply existsb_exists. exists (lo, hi). split; [exact Hin|].
    cbn [fst snd]. rewrite Z.leb_refl. exact Hb. }
  assert (R3 : lread s [Z.to_N lo]) by (apply (lr_eps s a); [rewrite Es; left; reflexivity | exact R2]).
  intros G. inversion G as [|? t ? ? Hi G1|? ? ? ? ? ? Hi]; subst; [eauto| |rewrite Es in Hi; destruct Hi as [[=]|[]]].
  rewrite Es in Hi. destruct Hi as [[= <-]|[]].
  inversion G1 as [|? t ? ? Hi G2|? rs1 t c u1 ? Hi Hr G2]; subst; [eauto|rewrite Ea in Hi; destruct Hi as [[=]|[]]|].
  rewrite Ea in Hi. destruct Hi as [[= <- <-]|[]].
  inversion G2 as [|? t ? ? Hi G3|? ? ? ? ? ? Hi]; subst; [eauto| |rewrite Eb in Hi; destruct Hi as [[=]|[]]].
  rewrite Eb in Hi. destruct Hi as [[= <-]|[]].
  inversion G3 as [|? t ? ? Hi|? ? ? ? ? ? Hi]; subst; [eauto|rewrite Ee in Hi; destruct Hi|rewrite Ee in Hi; destruct Hi].
Qed.
