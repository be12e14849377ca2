(** C62, C63, continued: the exported functions when any number of calls share both caches, the lexer's and the
    parser's. *)
From Coq Require Import String List NArith ZArith Bool Arith Lia Relations.
From Verif Require Import Lexer Grammar Utf8 Strs Mime GoTime Parser Spec ParserFacts Static Cfws First LexFacts Walker Api GenSyntax GenAtn GenCode GenRun GenShape GenNet GenCheck GenFacts GenLex GenWit GenPredict GenCost GenCache GenLexCache PropGen PropPredict PropCache PropSize PropCost.
Import ListNotations.

(** ** Statements *)

(** Where a call is.  Simplification: the token stream is filled before the rule function runs, in the code it is
    filled as far as the parser looks ahead. *)
(* /repo: parser.go:24-32, parser.go:47-55 *)
Inductive place : Type := Lexing (t : lthread) | Parsing (t : thread).

(** A call that has begun: the function, its arguments, where it is, and how many steps it has taken. *)
Record acall : Type := mkCall { a_func : func; a_env : env; a_input : list byte; a_place : place; a_steps : nat }.
Definition process := (lcache * cache * list acall)%type.

(** A call begins, or one of the calls takes a step: in the lexer, from the lexer to the parser, in the parser. *)
(* /repo: parser.go:17-60, parser/rfc5322_lexer.go:216-227, parser/rfc5322_parser.go:612-627 *)
Inductive proc_step : process -> process -> Prop :=
| p_call : forall lc c js f e input, input <> [] ->
    proc_step (lc, c, js) (lc, c, js ++ [mkCall f e input (Lexing (LStart (decode input) [])) 0])
| p_lex : forall lc c js1 f e input t i js2 lc' t', lstep (bad_rune e) lc t lc' t' ->
    proc_step (lc, c, js1 ++ mkCall f e input (Lexing t) i :: js2) (lc', c, js1 ++ mkCall f e input (Lexing t') (S i) :: js2)
| p_parse : forall lc c js1 f e input w i js2 n, depth (rule_of_func f) w <= n ->
    proc_step (lc, c, js1 ++ mkCall f e input (Lexing (LDone w)) i :: js2)
      (lc, c, js1 ++ mkCall f e input (Parsing (Running (start n (rule_of_func f) w))) (S i) :: js2)
| p_step : forall lc c js1 f e input t i js2 c' t', step c t c' t' ->
    proc_step (lc, c, js1 ++ mkCall f e input (Parsing t) i :: js2) (lc, c', js1 ++ mkCall f e input (Parsing t') (S i) :: js2).

(** Everything that can happen since the process began. *)
Definition happens (s : process) : Prop := clos_refl_trans_1n _ proc_step (empty_lcache, empty_cache, []) s.

(** Following the edges of the lexer's cache. *)
Inductive lleads_to (c : lcache) : nat -> list rune -> nat -> Prop :=
| ll_here : forall id, lleads_to c id [] id
| ll_next : forall id x id' u id'', llink c id x = Some (LTo id') -> lleads_to c id' u id'' -> lleads_to c id (x :: u) id''.

(** The most steps that a call takes: at most four per character in the lexer, then those of the parser. *)
Definition most_steps (n : nat) : nat := 4 * n + 4 + max_steps n.

(** ** Proofs *)
Definition well (lc : lcache) (c : cache) (j : acall) : Prop :=
  a_input j <> [] /\
  match a_place j with
  | Lexing t => lfine (bad_rune (a_env j)) (tokens (a_env j) (a_input j)) lc t /\ a_steps j + lmost t <= 4 * length (a_input j) + 3
  | Parsing t => fine (fun o => returns (a_func j) (a_env j) o = Some (alone (a_func j) (a_env j) (a_input j))) c t /\
      within (length (tokens (a_env j) (a_input j))) (most_steps (length (a_input j))) (a_steps j) t
  end.

Lemma well_more lc lc' c c' j : lextends lc lc' -> extends c c' -> well lc c j -> well lc' c' j.
Proof.
  intros X Y [Hi H]. split; [exact Hi|]. destruct (a_place j) as [t|t]; destruct H as [H1 H2]; split; auto.
  - exact (lfine_extends _ _ _ _ _ X H1).
  - exact (fine_extends _ _ _ _ Y H1).
Qed.

Definition all_well (s : process) : Prop :=
  lsound (fst (fst s)) /\ sound (snd (fst s)) /\ Forall (well (fst (fst s)) (snd (fst s))) (snd s).

Lemma split_well lc c lc' c' js1 j js2 j' : lextends lc lc' -> extends c c' -> Forall (well lc c) (js1 ++ j :: js2) ->
  (well lc c j -> well lc' c' j') -> Forall (well lc' c') (js1 ++ j' :: js2).
Proof.
  intros X Y G H. apply Forall_app in G as [G1 G2]. pose proof (Forall_inv G2) as G3. apply Forall_inv_tail in G2.
  assert (E : forall l, Forall (well lc c) l -> Forall (well lc' c') l) by (intros l; apply Forall_impl; intros a; apply well_more; assumption).
  apply Forall_app. split; [apply E; exact G1|]. constructor; [apply H; exact G3 | apply E; exact G2].
Qed.

Lemma proc_keeps s s' : proc_step s s' -> all_well s -> all_well s'.
Proof.
  intros [lc c js f e input Hi | lc c js1 f e input t i js2 lc' t' S0 | lc c js1 f e input w i js2 n Hn | lc c js1 f e input t i js2 c' t' S0] (K1 & K2 & G);
    unfold all_well; cbn [fst snd] in *.
  - split; [exact K1|]. split; [exact K2|]. apply Forall_app. split; [exact G|]. constructor; [|constructor]. split; [exact Hi|].
    cbn [a_place a_env a_input a_steps]. split; [reflexivity|]. cbn [lmost]. pose proof (decode_length input). lia.
  - destruct (lstep_keeps _ _ _ _ _ S0 K1) as (K' & X & H). split; [exact K'|]. split; [exact K2|].
    apply (split_well lc c lc' c js1 _ js2 _ X (extends_refl c) G). intros [Hi [F L]]. split; [exact Hi|]. cbn [a_place a_env a_input a_steps] in *. split; [apply H; exact F|].
    pose proof (lstep_less _ _ _ _ _ _ S0 K1 F). lia.
  - split; [exact K1|]. split; [exact K2|]. apply (split_well lc c lc c js1 _ js2 _ (lextends_refl lc) (extends_refl c) G).
    intros [Hi [F L]]. split; [exact Hi|]. cbn [a_place a_func a_env a_input a_steps lfine lmost] in *. subst w. split.
    + apply (start_good c f e input (tokens e input) n Hi); [apply scans_iff; reflexivity | exact Hn].
    + split; [apply start_small|]. intros m o A. apply C63_linear in A as [A _]. pose proof (tokens_length e input) as T. unfold most_steps, max_steps.
      assert (m * (length (tokens e input) + 2) <= max_requests (length input) * (length input + 3)) by (apply Nat.mul_le_mono; [exact A | lia]). lia.
  - destruct (step_keeps _ _ _ _ S0 K2) as (K' & X & H). split; [exact K1|]. split; [exact K'|].
    apply (split_well lc c lc c' js1 _ js2 _ (lextends_refl lc) X G). intros [Hi [F L]]. split; [exact Hi|]. cbn [a_place a_func a_env a_input a_steps] in *.
    split; [apply H; exact F|]. exact (step_within _ _ _ _ _ _ _ _ S0 K2 F L).
Qed.

Lemma happens_well s : happens s -> all_well s.
Proof.
  unfold happens. intros H. assert (B : all_well (empty_lcache, empty_cache, @nil acall)).
  { split; [apply empty_lsound|]. split; [apply empty_sound | constructor]. }
  revert B. induction H as [s|s1 s2 s3 H1 _ IH]; [auto|]. intros B. apply IH. exact (proc_keeps s1 s2 H1 B).
Qed.

Lemma job_well lc c js j : happens (lc, c, js) -> In j js -> well lc c j.
Proof. intros H Hj. apply happens_well in H as (_ & _ & G). cbn [fst snd] in G. rewrite Forall_forall in G. exact (G _ Hj). Qed.

(** A call that has ended returned what it returns when it is the only call, whatever other calls have put into the
    two caches before and meanwhile. *)
Theorem C62_both_caches_calls_do_not_interfere lc c js f e input o i :
  happens (lc, c, js) -> In (mkCall f e input (Parsing (Running (End o))) i) js -> returns f e o = Some (alone f e input).
Proof. intros H Hj. destruct (job_well _ _ _ _ H Hj) as [_ [F _]]. exact F. Qed.

(** The tokens that a call reads are those of its own input: the ones that the lexer's network accepts. *)
Theorem C62_lexer_tokens lc c js f e input w i :
  happens (lc, c, js) -> In (mkCall f e input (Lexing (LDone w)) i) js -> scans (bad_rune e) (decode input) w.
Proof. intros H Hj. destruct (job_well _ _ _ _ H Hj) as [_ [F _]]. apply scans_iff. exact F. Qed.

(** What is in the lexer's cache is at all times what the simulator would compute: the rule that is stored where
    the text [u] leads is the first one that reads [u]; if none is stored no rule reads [u]; after an error edge no
    rule reads what follows.  Only ASCII characters have edges. *)
Theorem C62_lexer_cached lc c js id u id' :
  happens (lc, c, js) -> lroot lc = Some id -> lleads_to lc id u id' ->
  (exists nd, nth_error (lnodes lc) id' = Some nd /\
     match laccept nd with
     | Some i => (exists t, rule_reads i u t) /\ forall j t, rule_reads j u t -> i <= j
     | None => forall j t, ~ rule_reads j u t
     end) /\
  (forall x v j t, llink lc id' x = Some LErr -> ~ rule_reads j (u ++ x :: v) t) /\
  (forall x g, llink lc id' x = Some g -> (x < 128)%N).
Proof.
  intros H R L. apply happens_well in H as (K & _ & _). cbn [fst] in K.
  assert (A : at_lnode lc id []) by (destruct (ls_root _ K _ R) as (nd & E & S0); exists nd; split; [exact E | exact S0]).
  assert (A' : at_lnode lc id' u).
  { change u with ([] ++ u). revert A. generalize (@nil rune) as p. clear R. induction L as [id|id x id' u id'' E _ IH]; intros p A.
    - rewrite app_nil_r. exact A.
    - destruct (ls_edge _ K _ _ _ E) as (nd & nd' & E1 & E2 & C). pose proof (at_lnext lc lc id id' p x nd nd' (lextends_refl lc) E1 E2 C A) as A2.
      specialize (IH _ A2). rewrite <- app_assoc in IH. exact IH. }
  destruct A' as (nd & E & Q). split; [|split].
  - exists nd. split; [exact E|]. pose proof (ls_marked _ K _ _ E) as M. unfold lmarked in M.
    assert (Q0 : forall k, lleads (lcfg nd) [] k <-> exists t, rule_reads k u t) by (intros k; rewrite (Q [] k), app_nil_r; reflexivity).
    destruct (laccept nd) as [i|].
    + destruct M as [M1 M2]. split; [apply Q0; exact M1|]. intros j t Hj. apply M2, Q0. eauto.
    + intros j t Hj. apply (M j), Q0. eauto.
  - intros x v j t El Hj. destruct (ls_err _ K _ _ El) as (nd0 & E0 & B). assert (nd0 = nd) as -> by congruence.
    apply (B v j), Q. eauto.
  - intros x g. apply (ls_ascii _ K).
Qed.

(** In every history and every schedule a call takes at most so many steps. *)
Theorem C63_both_caches_steps lc c js f e input p i : happens (lc, c, js) -> In (mkCall f e input p i) js -> i <= most_steps (length input).
Proof.
  intros H Hj. destruct (job_well _ _ _ _ H Hj) as [_ F]. cbn [a_place a_env a_input a_steps a_func] in F. destruct p as [t|t]; destruct F as [F L].
  - unfold most_steps. lia.
  - exact (within_now _ _ _ _ L).
Qed.

(** At every moment every call can run to its end by itself, without a step of any other call. *)
Theorem C62_both_caches_need_no_other lc c js1 f e input p i js2 : happens (lc, c, js1 ++ mkCall f e input p i :: js2) ->
  exists lc' c' o i', clos_refl_trans_1n _ proc_step (lc, c, js1 ++ mkCall f e input p i :: js2)
    (lc', c', js1 ++ mkCall f e input (Parsing (Running (End o))) i' :: js2).
Proof.
  intros H. apply happens_well in H.
  assert (P : forall t, forall c i, exists c' o i', clos_refl_trans_1n _ proc_step (lc, c, js1 ++ mkCall f e input (Parsing t) i :: js2)
    (lc, c', js1 ++ mkCall f e input (Parsing (Running (End o))) i' :: js2)).
  { clear. intros t. induction (thread_ends t) as [t _ IH]. intros c i. destruct (not_blocked c t) as [[o ->]|(c' & t' & S0)].
    - exists c, o, i. constructor.
    - destruct (IH t' ltac:(exists c, c'; exact S0) c' (S i)) as (c2 & o & i' & R). exists c2, o, i'. econstructor; [|exact R]. apply p_step. exact S0. }
  assert (P' : forall lc t c i, exists lc' c' o i', clos_refl_trans_1n _ proc_step (lc, c, js1 ++ mkCall f e input (Parsing t) i :: js2)
    (lc', c', js1 ++ mkCall f e input (Parsing (Running (End o))) i' :: js2)).
  { clear. intros lc t. induction (thread_ends t) as [t _ IH]. intros c i. destruct (not_blocked c t) as [[o ->]|(c' & t' & S0)].
    - exists lc, c, o, i. constructor.
    - destruct (IH t' ltac:(exists c, c'; exact S0) c' (S i)) as (lc2 & c2 & o & i' & R). exists lc2, c2, o, i'. econstructor; [|exact R]. apply p_step. exact S0. }
  clear P. destruct p as [t|t]; [|apply P'].
  remember (lmost t) as n eqn:En. revert lc t i H En. induction n as [n IH] using (well_founded_induction lt_wf). intros lc t i H ->.
  pose proof H as (K & K2 & G). cbn [fst snd] in *. apply Forall_app in G as [_ G]. apply Forall_inv in G as [Hi [F _]]. cbn [a_place a_env a_input a_steps] in F.
  destruct (lnot_blocked _ _ _ _ K F) as [[w ->]|(lc' & t' & S0)].
  - destruct (P' lc (Running (start (depth (rule_of_func f) w) (rule_of_func f) w)) c (S i)) as (lc2 & c2 & o & i' & R).
    exists lc2, c2, o, i'. econstructor; [|exact R]. apply p_parse. lia.
  - pose proof (p_lex lc c js1 f e input t i js2 lc' t' S0) as S1.
    destruct (IH (lmost t') (lstep_less _ _ _ _ _ _ S0 K F) lc' t' (S i) (proc_keeps _ _ S1 H) eq_refl) as (lc2 & c2 & o & i' & R).
    exists lc2, c2, o, i'. econstructor; [exact S1 | exact R].
Qed.

(** A call can begin at any moment, and then it can run to its end and returns what it returns alone. *)
Theorem C62_both_caches_always_served lc c js f e input : happens (lc, c, js) -> input <> [] ->
  exists lc' c' js' o i, happens (lc', c', js') /\ In (mkCall f e input (Parsing (Running (End o))) i) js' /\ returns f e o = Some (alone f e input).
Proof.
  intros H Hi. assert (H1 : happens (lc, c, js ++ [mkCall f e input (Lexing (LStart (decode input) [])) 0])).
  { unfold happens in *. apply clos_rt_rt1n. apply rt_trans with (lc, c, js); [apply clos_rt1n_rt; exact H|]. apply rt_step. apply p_call. exact Hi. }
  destruct (C62_both_caches_need_no_other lc c js f e input _ _ [] H1) as (lc' & c' & o & i & R).
  assert (R' : happens (lc', c', js ++ [mkCall f e input (Parsing (Running (End o))) i])).
  { unfold happens in *. apply clos_rt_rt1n. eapply rt_trans; apply clos_rt1n_rt; [exact H1 | exact R]. }
  assert (I0 : In (mkCall f e input (Parsing (Running (End o))) i) (js ++ [mkCall f e input (Parsing (Running (End o))) i])) by (apply in_or_app; right; left; reflexivity).
  exists lc', c', (js ++ [mkCall f e input (Parsing (Running (End o))) i]), o, i. split; [exact R'|]. split; [exact I0|].
  exact (C62_both_caches_calls_do_not_interfere _ _ _ _ _ _ _ _ R' I0).
Qed.

(** ** The hypotheses can be met *)

(** Two calls at the same time.  The first one has put the root and an edge for 'a' into the lexer's cache and has
    made its first token; the second one has followed the edge and is at the same node. *)
Example C62_lexer_shared e1 e2 : exists lc nd t i, happens (lc, empty_cache,
    [mkCall ParseAddressList_ e1 (bs "a@b") (Lexing (LStart (bs "@b") [mkTok t 97%N])) 4;
     mkCall ParseDateTime_ e2 (bs "a") (Lexing (LRead 1 [97%N] [] [] (Some (i, [97%N], [])))) 2]) /\
  lroot lc = Some 0 /\ llink lc 0 97%N = Some (LTo 1) /\ llink lc 1 64%N = Some LErr /\
  nth_error (lnodes lc) 1 = Some nd /\ laccept nd = Some i /\ rule_type i t.
Proof.
  destruct (some_rule 97%N) as [H|(i & (t & R) & F)].
  { exfalso. pose proof (no_rule 97%N H) as Q. vm_compute in Q. discriminate. }
  set (n0 := mkLNode lstart_cfg None). set (n1 := mkLNode (lafter (lcfg n0) 97%N) (Some i)).
  assert (M0 : lmarked n0) by (intros j Hj; apply lstarts_here in Hj as (t' & R'); exact (reads_not_nil _ _ R')).
  assert (Q : forall u j, lleads (lcfg n1) u j <-> exists t, rule_reads j (97%N :: u) t) by (intros u j; exact (iff_trans (lafter_continues (lcfg n0) 97%N u j) (lstarts_here (97%N :: u) j))).
  assert (M1 : lmarked n1).
  { cbn [lmarked laccept n1]. split; [apply Q; eauto|]. intros j Hj. apply Q in Hj as (t' & Rj). exact (F j t' Rj). }
  assert (C1 : lcontinues (lcfg n0) 97%N (lcfg n1)).
  { split; [apply lafter_continues|]. exists [], i. apply lstarts_here. eauto. }
  assert (B1 : lbreaks (lcfg n1) 64%N) by (intros u j Hj; apply Q in Hj as (t' & Rj); destruct (reads_one _ _ _ Rj) as (z & [=])).
  set (c1 := set_lroot (add_lnode empty_lcache n0) 0). set (c2 := set_llink (add_lnode c1 n1) 0 97%N (LTo 1)). set (c3 := set_llink c2 1 64%N LErr).
  assert (T : rule_type i t) by (destruct R as (s & _ & _ & E); exists s; exact E).
  exists c3, n1, t, i. split; [|split; [reflexivity|]; split; [reflexivity|]; split; [reflexivity|]; split; [reflexivity|]; split; [reflexivity | exact T]].
  unfold happens. change (bs "@b") with [64%N; 98%N].
  eapply Relation_Operators.rt1n_trans; [apply (p_call empty_lcache empty_cache [] ParseAddressList_ e1 (bs "a@b")); discriminate|].
  eapply Relation_Operators.rt1n_trans; [apply (p_call empty_lcache empty_cache _ ParseDateTime_ e2 (bs "a")); discriminate|].
  cbn [app]. change (decode (bs "a@b")) with [97%N; 64%N; 98%N]. change (decode (bs "a")) with [97%N].
  eapply Relation_Operators.rt1n_trans; [apply (p_lex empty_lcache empty_cache [] _ _ _ _ _ [_] _ _ (l_new_root (bad_rune e1) empty_lcache [97%N; 64%N; 98%N] [] n0 lstarts_here M0))|].
  change (length (lnodes empty_lcache)) with 0. fold c1. cbn [app arrive n0 laccept].
  eapply Relation_Operators.rt1n_trans; [apply (p_lex c1 empty_cache [] _ _ _ _ _ [_] _ _ (l_grow (bad_rune e1) c1 0 [] 97%N [64%N; 98%N] [] None n0 n1 eq_refl C1 M1))|].
  change (length (lnodes c1)) with 1. fold c2. cbn [app]. change (arrive n1 [97%N] [64%N; 98%N] None) with (Some (i, [97%N], [64%N; 98%N])).
  eapply Relation_Operators.rt1n_trans; [apply (p_lex c2 empty_cache [_] _ _ _ _ _ [] _ _ (l_root (bad_rune e2) c2 [97%N] [] 0 n0 eq_refl eq_refl))|].
  cbn [app]. change (arrive n0 [] [97%N] None) with (@None (nat * list rune * list rune)).
  eapply Relation_Operators.rt1n_trans; [apply (p_lex c2 empty_cache [_] _ _ _ _ _ [] _ _ (l_edge (bad_rune e2) c2 0 [] 97%N [] [] None 1 n1 eq_refl eq_refl))|].
  cbn [app]. change (arrive n1 [97%N] [] None) with (Some (i, [97%N], @nil rune)).
  eapply Relation_Operators.rt1n_trans; [apply (p_lex c2 empty_cache [] _ _ _ _ _ [_] _ _ (l_break (bad_rune e1) c2 1 [97%N] 64%N [98%N] [] _ n1 eq_refl B1))|].
  fold c3. cbn [app].
  eapply Relation_Operators.rt1n_trans; [apply (p_lex c3 empty_cache [] _ _ _ _ _ [_] _ _ (l_token (bad_rune e1) c3 [64%N; 98%N] [] i 97%N [64%N; 98%N] t T))|].
  cbn [app]. apply Relation_Operators.rt1n_refl.
Qed.
