(** C62, C63, continued: calls whose lexer and parser take turns.

    In the code the tokens of a call are made when they are needed: CommonTokenStream asks the lexer for more tokens
    when the parser looks further ahead than it did before.  PropProcess.v fills the token stream first.  Here every
    call has a lexer and a parser that take their steps in any order that a [policy] allows; the theorems hold for
    every policy, so in particular for the one of the code. *)
From Coq Require Import String List NArith ZArith Bool Arith Lia Relations.
From Verif Require Import Lexer Grammar Utf8 Strs Mime GoTime Parser Spec ParserFacts Static Cfws First LexFacts Walker Api GenSyntax GenAtn GenCode GenRun GenShape GenNet GenCheck GenFacts GenLex GenWit GenPredict GenCost GenCache GenLexCache PropGen PropPredict PropSize PropCost GenRecover GenRecEnd GenRecAsk GenRecCost GenRecShort PropRecover GenCacheRec PropCache PropProcess.
Import ListNotations.

(** ** Statements *)

(** A call that has begun: the function, its arguments, its lexer, its parser, and how many steps each of the two has
    taken.  The parser's state mentions the tokens that the parser has not read; whether they have been made is up to
    the lexer's state and the policy. *)
(* /repo: parser.go:24-32, parser.go:47-55 *)
Record lazy : Type := mkLazy { z_func : func; z_env : env; z_input : list byte; z_lexer : lthread; z_parser : rthread;
  z_lexed : nat; z_parsed : nat }.
Definition lworld := (lcache * cache * list lazy)%type.

(** When the lexer of a call may take a step, and when the parser may. *)
(* /repo: ANTLR runtime, CommonTokenStream.Sync, LT, LA, Consume: the lexer runs when the parser needs a token *)
Record policy : Type := mkPolicy { lexer_may : lazy -> bool; parser_may : lazy -> bool }.

(** One of the two may always go on, and the parser may once all tokens have been made. *)
(* /repo: ANTLR runtime, CommonTokenStream.Sync, Fetch *)
Definition no_deadlock (p : policy) : Prop := forall j,
  (lexer_may p j = true \/ parser_may p j = true) /\ (forall w, z_lexer j = LDone w -> parser_may p j = true).

(** A call begins, or the lexer or the parser of one of the calls takes a step. *)
(* /repo: parser.go:17-60, parser/rfc5322_lexer.go:216-227, parser/rfc5322_parser.go:612-627, :872-892 *)
Inductive lworld_step (p : policy) : lworld -> lworld -> Prop :=
| z_call : forall lc c js f e input n, input <> [] -> rdepth (rule_of_func f) (tokens e input) <= n ->
    lworld_step p (lc, c, js)
      (lc, c, js ++ [mkLazy f e input (LStart (decode input) []) (RRunning (rstart n (rule_of_func f) (tokens e input))) 0 0])
| z_lex : forall lc c js1 f e input t r i k js2 lc' t', lexer_may p (mkLazy f e input t r i k) = true ->
    lstep (bad_rune e) lc t lc' t' ->
    lworld_step p (lc, c, js1 ++ mkLazy f e input t r i k :: js2) (lc', c, js1 ++ mkLazy f e input t' r (S i) k :: js2)
| z_parse : forall lc c js1 f e input t r i k js2 c' r', parser_may p (mkLazy f e input t r i k) = true ->
    rstep c r c' r' ->
    lworld_step p (lc, c, js1 ++ mkLazy f e input t r i k :: js2) (lc, c', js1 ++ mkLazy f e input t r' i (S k) :: js2).

(** Everything that can happen since the process began. *)
Definition lazily (p : policy) (s : lworld) : Prop := clos_refl_trans_1n _ (lworld_step p) (empty_lcache, empty_cache, []) s.

(** The tokens that a lexer has made. *)
(* /repo: ANTLR runtime, CommonTokenStream.tokens *)
Definition made (t : lthread) : word :=
  match t with LStart _ acc => acc | LRead _ _ _ acc _ => acc | LStop _ acc _ => acc | LDone w => w end.

(** ** Proofs *)
Definition zsane (lc : lcache) (c : cache) (j : lazy) : Prop :=
  z_input j <> [] /\
  (lfine (bad_rune (z_env j)) (tokens (z_env j) (z_input j)) lc (z_lexer j) /\ z_lexed j + lmost (z_lexer j) <= 4 * length (z_input j) + 3) /\
  rfine (fun o => gives (z_func j) (z_env j) o = Some (alone (z_func j) (z_env j) (z_input j))) c (z_parser j) /\ rasks (z_parser j) /\
  rwithin (length (tokens (z_env j) (z_input j))) (most_requests (length (tokens (z_env j) (z_input j)))) 0 (z_parsed j) (z_parser j).

Lemma zsane_more lc lc' c c' j : lextends lc lc' -> extends c c' -> zsane lc c j -> zsane lc' c' j.
Proof.
  intros X Y (Hi & [L1 L2] & R1 & R2). split; [exact Hi|]. split; [split; [exact (lfine_extends _ _ _ _ _ X L1) | exact L2]|].
  split; [exact (rfine_extends _ _ _ _ Y R1) | exact R2].
Qed.

Definition all_zsane (s : lworld) : Prop :=
  lsound (fst (fst s)) /\ sound (snd (fst s)) /\ Forall (zsane (fst (fst s)) (snd (fst s))) (snd s).

Lemma split_zsane lc c lc' c' js1 j js2 j' : lextends lc lc' -> extends c c' -> Forall (zsane lc c) (js1 ++ j :: js2) ->
  (zsane lc c j -> zsane lc' c' j') -> Forall (zsane lc' c') (js1 ++ j' :: js2).
Proof.
  intros X Y G H. apply Forall_app in G as [G1 G2]. pose proof (Forall_inv G2) as G3. apply Forall_inv_tail in G2.
  assert (E : forall l, Forall (zsane lc c) l -> Forall (zsane lc' c') l) by (intros l; apply Forall_impl; intros a; apply zsane_more; assumption).
  apply Forall_app. split; [apply E; exact G1|]. constructor; [apply H; exact G3 | apply E; exact G2].
Qed.

Lemma lworld_keeps p s s' : lworld_step p s s' -> all_zsane s -> all_zsane s'.
Proof.
  intros [lc c js f e input n Hi Hn | lc c js1 f e input t r i k js2 lc' t' _ S0 | lc c js1 f e input t r i k js2 c' r' _ S0] (K1 & K2 & G);
    unfold all_zsane; cbn [fst snd] in *.
  - split; [exact K1|]. split; [exact K2|]. apply Forall_app. split; [exact G|]. constructor; [|constructor]. split; [exact Hi|].
    cbn [z_func z_env z_input z_lexer z_parser z_lexed z_parsed].
    pose proof (lex_stream (bad_rune e) (decode input)) as St. change (lex (bad_rune e) (decode input)) with (tokens e input) in St.
    split; [split; [reflexivity | cbn [lmost]; pose proof (decode_length input); lia]|]. split; [|split].
    + cbn [rfine]. eapply revery_mono; [|apply (rstart_verdict n _ _ (rule_start f) St Hn)]. intros o. apply rverdict_gives. exact Hi.
    + apply start_asked. exact St.
    + exists 0. split; [apply rstart_small|]. split; [lia|]. apply start_cost. exact Hn.
  - destruct (lstep_keeps _ _ _ _ _ S0 K1) as (K' & X & H). split; [exact K'|]. split; [exact K2|].
    apply (split_zsane lc c lc' c js1 _ js2 _ X (extends_refl c) G). intros (Hi & [F L] & R). split; [exact Hi|].
    cbn [z_func z_env z_input z_lexer z_parser z_lexed z_parsed] in *. split; [|exact R]. split; [apply H; exact F|].
    pose proof (lstep_less _ _ _ _ _ _ S0 K1 F). lia.
  - destruct (rstep_keeps _ _ _ _ S0 K2) as (K' & X & H & H'). split; [exact K1|]. split; [exact K'|].
    apply (split_zsane lc c lc c' js1 _ js2 _ (lextends_refl lc) X G). intros (Hi & F0 & F & A & L). split; [exact Hi|].
    cbn [z_func z_env z_input z_lexer z_parser z_lexed z_parsed] in *. split; [exact F0|].
    split; [apply H; exact F|]. split; [apply H'; exact A|]. exact (rstep_within _ _ _ _ _ _ _ _ S0 K2 (ex_intro (fun P => rfine P c r) _ F) L).
Qed.

Lemma lsteps_zsane p s s' : clos_refl_trans_1n _ (lworld_step p) s s' -> all_zsane s -> all_zsane s'.
Proof. induction 1 as [s|s1 s2 s3 H1 _ IH]; [auto|]. intros B. apply IH. exact (lworld_keeps p s1 s2 H1 B). Qed.

Lemma lazily_zsane p s : lazily p s -> all_zsane s.
Proof. intros H. apply (lsteps_zsane _ _ _ H). split; [apply empty_lsound|]. split; [apply empty_sound | constructor]. Qed.

Lemma lazy_zsane p lc c js j : lazily p (lc, c, js) -> In j js -> zsane lc c j.
Proof. intros H Hj. apply lazily_zsane in H as (_ & _ & G). cbn [fst snd] in G. rewrite Forall_forall in G. exact (G _ Hj). Qed.

Lemma lfine_made m w0 c t : lfine m w0 c t -> exists v, w0 = made t ++ v.
Proof.
  destruct t as [rs acc|id u v acc best|v acc best|w]; cbn [made].
  - intros H. exists (lex m rs). exact H.
  - intros H. cbn [lfine] in H. unfold left in H. decompose [and or ex] H; eauto.
  - intros H. cbn [lfine] in H. unfold left in H. destruct best as [[[i u] rest]|]; decompose [and or ex] H; subst; eauto.
  - intros H. cbn [lfine] in H. subst. exists []. rewrite app_nil_r. reflexivity.
Qed.

(** The tokens that exist are always the first tokens of the input, the same ones that the lexer alone makes. *)
Theorem C62_tokens_on_demand p lc c js f e input t r i k :
  lazily p (lc, c, js) -> In (mkLazy f e input t r i k) js -> exists v, tokens e input = made t ++ v.
Proof. intros H Hj. destruct (lazy_zsane _ _ _ _ _ H Hj) as (_ & [F _] & _). exact (lfine_made _ _ _ _ F). Qed.

(** A call that has ended returned what it returns when it is the only call, however its lexer and its parser, and
    those of the other calls, took turns. *)
Theorem C62_interleaved_calls_do_not_interfere p lc c js f e input t o i k :
  lazily p (lc, c, js) -> In (mkLazy f e input t (RRunning (REnd o)) i k) js -> gives f e o = Some (alone f e input).
Proof. intros H Hj. destruct (lazy_zsane _ _ _ _ _ H Hj) as (_ & _ & F & _). exact F. Qed.

(** In every history and every schedule a call takes at most so many steps. *)
Theorem C63_interleaved_steps p lc c js f e input t r i k :
  lazily p (lc, c, js) -> In (mkLazy f e input t r i k) js -> (Z.of_nat (i + k) <= call_steps (length input))%Z.
Proof.
  intros H Hj. destruct (lazy_zsane _ _ _ _ _ H Hj) as (_ & [_ F] & _ & A & L).
  cbn [z_func z_env z_input z_lexer z_parser z_lexed z_parsed] in *. unfold call_steps.
  apply rwithin_now in L; [|exact A]. pose proof (tokens_length e input) as T. unfold most_requests in L.
  set (a := length (tokens e input)) in *. set (n := length input) in *.
  assert (600500 * (Z.of_nat a + 1) * (Z.of_nat a + 2) <= 600500 * (Z.of_nat n + 2) * (Z.of_nat n + 3))%Z by nia. lia.
Qed.

(** At every moment every call can run to its end by itself, without a step of any other call. *)
Theorem C62_interleaved_calls_need_no_other p lc c js1 f e input t r i k js2 : no_deadlock p ->
  lazily p (lc, c, js1 ++ mkLazy f e input t r i k :: js2) ->
  exists lc' c' t' o i' k', clos_refl_trans_1n _ (lworld_step p) (lc, c, js1 ++ mkLazy f e input t r i k :: js2)
    (lc', c', js1 ++ mkLazy f e input t' (RRunning (REnd o)) i' k' :: js2).
Proof.
  intros D H. apply lazily_zsane in H. remember (lmost t) as n eqn:En. revert lc c t r i k En H.
  induction n as [n IHn] using (well_founded_induction lt_wf). intros lc c t r. revert lc c t. induction (rthread_ends r) as [r _ IHr]. intros lc c t i k En H.
  pose proof H as (K1 & K2 & G). cbn [fst snd] in *. apply Forall_app in G as [_ G]. apply Forall_inv in G as (_ & [F _] & _ & A & _).
  cbn [z_func z_env z_input z_lexer z_parser z_lexed z_parsed] in *.
  set (j := mkLazy f e input t r i k) in *. destruct (D j) as [D1 D2].
  assert (Ps : parser_may p j = true -> exists lc' c' t' o i' k', clos_refl_trans_1n _ (lworld_step p) (lc, c, js1 ++ j :: js2)
    (lc', c', js1 ++ mkLazy f e input t' (RRunning (REnd o)) i' k' :: js2)).
  { intros M. destruct (rnot_blocked c r A) as [[o ->]|(c' & r' & S0)].
    - exists lc, c, t, o, i, k. constructor.
    - pose proof (z_parse p lc c js1 f e input t r i k js2 c' r' M S0) as S1.
      destruct (IHr r' ltac:(exists c, c'; exact S0) lc c' t i (S k) En (lworld_keeps _ _ _ S1 H)) as (lc2 & c2 & t2 & o & i2 & k2 & R).
      exists lc2, c2, t2, o, i2, k2. econstructor; [exact S1 | exact R]. }
  destruct (parser_may p j) eqn:M; [exact (Ps eq_refl)|]. destruct D1 as [D1|D1]; [|exact (Ps D1)].
  destruct (lnot_blocked _ _ _ _ K1 F) as [[w Ew]|(lc' & t' & S0)]; [specialize (D2 w Ew); congruence|].
  pose proof (z_lex p lc c js1 f e input t r i k js2 lc' t' D1 S0) as S1. pose proof (lstep_less _ _ _ _ _ _ S0 K1 F) as L.
  destruct (IHn (lmost t') ltac:(lia) lc' c t' r (S i) k eq_refl (lworld_keeps _ _ _ S1 H)) as (lc2 & c2 & t2 & o & i2 & k2 & R).
  exists lc2, c2, t2, o, i2, k2. econstructor; [exact S1 | exact R].
Qed.

(** A call can begin at any moment, and then it can run to its end and returns what it returns alone. *)
Theorem C62_interleaved_always_served p lc c js f e input : no_deadlock p -> lazily p (lc, c, js) -> input <> [] ->
  exists lc' c' js' t o i k, lazily p (lc', c', js') /\ In (mkLazy f e input t (RRunning (REnd o)) i k) js' /\ gives f e o = Some (alone f e input).
Proof.
  intros D H Hi.
  assert (H1 : lazily p (lc, c, js ++ [mkLazy f e input (LStart (decode input) [])
    (RRunning (rstart (rdepth (rule_of_func f) (tokens e input)) (rule_of_func f) (tokens e input))) 0 0])).
  { unfold lazily in *. apply clos_rt_rt1n. apply rt_trans with (lc, c, js); [apply clos_rt1n_rt; exact H|]. apply rt_step. apply z_call; [exact Hi | apply le_n]. }
  destruct (C62_interleaved_calls_need_no_other p lc c js f e input _ _ _ _ [] D H1) as (lc' & c' & t & o & i & k & R).
  assert (R' : lazily p (lc', c', js ++ [mkLazy f e input t (RRunning (REnd o)) i k])).
  { unfold lazily in *. apply clos_rt_rt1n. eapply rt_trans; apply clos_rt1n_rt; [exact H1 | exact R]. }
  assert (I0 : In (mkLazy f e input t (RRunning (REnd o)) i k) (js ++ [mkLazy f e input t (RRunning (REnd o)) i k])) by (apply in_or_app; right; left; reflexivity).
  exists lc', c', (js ++ [mkLazy f e input t (RRunning (REnd o)) i k]), t, o, i, k. split; [exact R'|]. split; [exact I0|].
  exact (C62_interleaved_calls_do_not_interfere _ _ _ _ _ _ _ _ _ _ _ R' I0).
Qed.

(** ** The hypotheses can be met *)

(** The lexer works only when the parser waits; the parser waits for the token that it looks at. *)
(* /repo: ANTLR runtime, CommonTokenStream.LT, LA.  Simplification: where the code looks at the next token without a
   prediction the model does not show how many tokens have been consumed; there the parser waits for the first one. *)
Definition on_demand : policy :=
  let may j := match z_lexer j with LDone _ => true | t =>
    match z_parser j with
    | RReading _ _ _ _ _ _ v => length (tokens (z_env j) (z_input j)) - length v <? length (made t)
    | RRunning (RAsk _ _ w _) => length (tokens (z_env j) (z_input j)) - length w <? length (made t)
    | RRunning _ => 1 <=? length (made t)
    end end in
  mkPolicy (fun j => negb (may j)) may.

Example on_demand_runs : no_deadlock on_demand.
Proof.
  intros j. split; cbn [on_demand lexer_may parser_may].
  - match goal with |- negb ?b = true \/ _ => destruct b; [right | left]; reflexivity end.
  - intros w ->. reflexivity.
Qed.

Lemma lstep_made m c t c' t' : lstep m c t c' t' -> made t' = made t \/ exists x, made t' = made t ++ [x].
Proof.
  intros [ ]; cbn [made]; eauto. destruct m; cbn [bad_char]; [left; apply app_nil_r | right; eauto].
Qed.

(** The lexer makes one token. *)
Lemma first_token c js1 f e input r k js2 : (forall t i, made t = [] -> (forall w, t <> LDone w) -> lexer_may on_demand (mkLazy f e input t r i k) = true) ->
  2 <= length (tokens e input) -> forall n lc t i, lmost t <= n -> made t = [] -> all_zsane (lc, c, js1 ++ mkLazy f e input t r i k :: js2) ->
  exists lc' t' x i', clos_refl_trans_1n _ (lworld_step on_demand) (lc, c, js1 ++ mkLazy f e input t r i k :: js2)
    (lc', c, js1 ++ mkLazy f e input t' r i' k :: js2) /\ made t' = [x].
Proof.
  intros May T. induction n as [n IH] using (well_founded_induction lt_wf). intros lc t i Hn Mt H.
  pose proof H as (K1 & K2 & G). cbn [fst snd] in *. apply Forall_app in G as [_ G]. apply Forall_inv in G as (_ & [F _] & _ & A & _).
  cbn [z_func z_env z_input z_lexer z_parser z_lexed z_parsed] in *.
  destruct (lnot_blocked _ _ _ _ K1 F) as [[w ->]|(lc' & t' & S0)].
  { cbn [lfine made] in *. rewrite F in Mt. rewrite Mt in T. cbn in T. lia. }
  assert (Nd : forall w, t <> LDone w) by (intros w ->; inversion S0).
  pose proof (z_lex on_demand lc c js1 f e input t r i k js2 lc' t' (May t i Mt Nd) S0) as S1.
  pose proof (lstep_less _ _ _ _ _ _ S0 K1 F) as L.
  destruct (lstep_made _ _ _ _ _ S0) as [E|[x E]]; rewrite Mt in E.
  - destruct (IH (lmost t') ltac:(lia) lc' t' (S i) ltac:(lia) E (lworld_keeps _ _ _ S1 H)) as (lc2 & t2 & x & i2 & R & E2).
    exists lc2, t2, x, i2. split; [econstructor; [exact S1 | exact R] | exact E2].
  - exists lc', t', x, (S i). split; [|exact E]. econstructor; [exact S1 | constructor].
Qed.

(** A call that has read one token of thirteen, has begun to parse, and has put the root of its first prediction into
    the parser's cache; another call has just begun. *)
Example C62_interleaved_met e1 e2 : exists lc c t x w k0 r2 i k, lazily on_demand (lc, c,
    [mkLazy ParseDateTime_ e1 (bs "1Jan20 10:10") t (RReading 34 [] w k0 0 [] w) i k;
     mkLazy ParseAddressList_ e2 (bs "a@b") (LStart (decode (bs "a@b")) []) r2 0 0]) /\
  made t = [x] /\ length w = 13 /\ root c 34 = Some 0.
Proof.
  set (s1 := bs "1Jan20 10:10"). set (s2 := bs "a@b"). set (w := tokens e1 s1). set (m := rdepth R_dateTime w).
  assert (Lw : length w = 13) by (unfold w, tokens; destruct (bad_rune e1); vm_compute; reflexivity).
  destruct (time_begins m w) as (h & k0 & B & C & _).
  set (r2 := RRunning (rstart (rdepth R_addressList (tokens e2 s2)) R_addressList (tokens e2 s2))).
  set (j2 := mkLazy ParseAddressList_ e2 s2 (LStart (decode s2) []) r2 0 0).
  assert (O1 : lazily on_demand (empty_lcache, empty_cache, [mkLazy ParseDateTime_ e1 s1 (LStart (decode s1) []) (RRunning (RSync 363 (la w) h)) 0 0; j2])).
  { unfold lazily. eapply Relation_Operators.rt1n_trans; [apply (z_call on_demand empty_lcache empty_cache [] ParseDateTime_ e1 s1 (3 + m)); [discriminate | unfold m; cbn [rule_of_func]; fold w; lia]|].
    cbn [rule_of_func]. fold w. rewrite B.
    eapply Relation_Operators.rt1n_trans; [apply (z_call on_demand empty_lcache empty_cache _ ParseAddressList_ e2 s2 (rdepth R_addressList (tokens e2 s2))); [discriminate | apply le_n]|].
    cbn [rule_of_func app]. apply Relation_Operators.rt1n_refl. }
  destruct (first_token empty_cache [] ParseDateTime_ e1 s1 (RRunning (RSync 363 (la w) h)) 0 [j2]) with (n := lmost (LStart (decode s1) [])) (lc := empty_lcache) (t := LStart (decode s1) []) (i := 0)
    as (lc & t & x & i & R & Mt).
  - intros t i Mt Nd. cbn [on_demand lexer_may z_lexer z_parser]. destruct t; try (cbn [made] in Mt; subst; reflexivity). exfalso. exact (Nd _ eq_refl).
  - fold w. rewrite Lw. lia.
  - apply le_n.
  - reflexivity.
  - exact (lazily_zsane _ _ O1).
  - set (n0 := mkNode (has true 34 [] []) None). set (c1 := set_root (add_node empty_cache n0) 34 0).
    exists lc, c1, t, x, w, k0, r2, i, 2. split; [|split; [exact Mt | split; [exact Lw | reflexivity]]].
    unfold lazily in *. apply clos_rt_rt1n. eapply rt_trans; [apply clos_rt1n_rt; exact O1|]. eapply rt_trans; [apply clos_rt1n_rt; exact R|]. cbn [app].
    assert (Pm : forall r k, (r = RRunning (RSync 363 (la w) h) \/ r = RRunning (RAsk 34 [] w k0)) -> parser_may on_demand (mkLazy ParseDateTime_ e1 s1 t r i k) = true).
    { intros r k Hr. cbn [on_demand parser_may z_lexer z_parser z_env z_input]. fold w. destruct t; try reflexivity; cbn [made] in *; rewrite Mt; destruct Hr as [-> | ->]; cbn [length]; try reflexivity; rewrite Nat.sub_diag; reflexivity. }
    eapply rt_trans; [apply rt_step; apply (z_parse on_demand lc empty_cache [] ParseDateTime_ e1 s1 t _ i 0 [j2] empty_cache (RRunning (h SyncOk))); [apply Pm; left; reflexivity | apply r_sync; split; [auto | intros [=]]]|].
    rewrite C. apply rt_step. apply (z_parse on_demand lc empty_cache [] ParseDateTime_ e1 s1 t _ i 1 [j2] c1 (RReading 34 [] w k0 0 [] w)); [apply Pm; right; reflexivity|].
    apply (r_new_root empty_cache 34 [] w k0 n0); [apply starts_here | intros y [=]].
Qed.
