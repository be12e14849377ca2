(** C62, continued: the exported functions when any number of calls share the prediction cache. *)
From Coq Require Import String List NArith ZArith Bool Arith Lia Relations.
From Verif Require Import Lexer Grammar Utf8 Strs Mime GoTime Parser Spec ParserFacts Static Cfws First LexFacts Walker Api GenSyntax GenAtn GenCode GenRun GenShape GenNet GenCheck GenFacts GenLex GenWit GenPredict GenCache PropGen PropPredict.
Import ListNotations.

(** ** Statements *)

(** A call of one of the two exported functions. *)
(* /repo: parser.go:17, parser.go:40 *)
Inductive func : Type := ParseAddressList_ | ParseDateTime_.
(* /repo: parser.go:32, parser.go:55 *)
Definition rule_of_func (f : func) : rule := match f with ParseAddressList_ => R_addressList | ParseDateTime_ => R_dateTime end.

(** What a caller gets. *)
Inductive reply : Type := ReplyList (o : Api.outcome slice) | ReplyTime (o : Api.outcome time).

(** What parser.go makes of the end of the rule function (parser.go:34-37, parser.go:57-60). *)
(* /repo: parser.go:17-60 *)
Definition returns (f : func) (e : env) (o : outcome) : option reply :=
  match f with
  | ParseAddressList_ => option_map ReplyList (finish None (fun x => match x with ResList s => Some s | _ => None end) e o)
  | ParseDateTime_ => option_map ReplyTime (finish zero_time (fun x => match x with ResTime v => Some v | _ => None end) e o)
  end.

(** What the same call returns when it is the only one there ever was. *)
Definition alone (f : func) (e : env) (input : list byte) : reply :=
  match f with
  | ParseAddressList_ => ReplyList (ParseAddressList e input)
  | ParseDateTime_ => ReplyTime (ParseDateTime e input)
  end.

(** A call that has begun: the function, its arguments, where it is, and how many steps it has taken. *)
Record job : Type := mkJob { j_func : func; j_env : env; j_input : list byte; j_thread : thread; j_steps : nat }.
Definition system := (cache * list job)%type.

(** The process: a call begins (on a goroutine of its own or after others have ended), or one of the calls
    takes a step. *)
(* /repo: parser.go:17-60, parser/rfc5322_parser.go:612-627 *)
Inductive sys_step : system -> system -> Prop :=
| y_call : forall c js f e input w n, input <> [] -> scans (bad_rune e) (decode input) w -> depth (rule_of_func f) w <= n ->
    sys_step (c, js) (c, js ++ [mkJob f e input (Running (start n (rule_of_func f) w)) 0])
| y_step : forall c js1 f e input t i js2 c' t', step c t c' t' ->
    sys_step (c, js1 ++ mkJob f e input t i :: js2) (c', js1 ++ mkJob f e input t' (S i) :: js2).

(** Everything that can happen since the process began. *)
Definition reachable (s : system) : Prop := clos_refl_trans_1n _ sys_step (empty_cache, []) s.

(** Following the edges of the cache. *)
Inductive leads_to (c : cache) : nat -> word -> nat -> Prop :=
| l_here : forall id, leads_to c id [] id
| l_next : forall id x id' u id'', link c id (tt x) = Some (To id') -> leads_to c id' u id'' -> leads_to c id (x :: u) id''.

(** ** Proofs *)
Definition good (c : cache) (j : job) : Prop :=
  fine (fun o => returns (j_func j) (j_env j) o = Some (alone (j_func j) (j_env j) (j_input j))) c (j_thread j).

Lemma verdict_parse r w o : verdict r w o ->
  match parse r w with Some t => exists c, o = Done [t] c [] | None => o = Failed end.
Proof.
  destruct o as [f c w'| |]; cbn [verdict]; [| |contradiction].
  - intros (t & -> & -> & S0). apply parse_selected in S0. rewrite S0. eauto.
  - intros H. apply parse_none in H. rewrite H. reflexivity.
Qed.

Lemma verdict_returns f e input o : input <> [] -> verdict (rule_of_func f) (tokens e input) o ->
  returns f e o = Some (alone f e input).
Proof.
  intros Hi V. apply verdict_parse in V. destruct f; cbn [rule_of_func returns alone] in *.
  - rewrite (list_cases e input Hi). destruct (parse R_addressList (tokens e input)) as [t|].
    + destruct V as [c ->]. cbn [finish]. destruct (walk (wenv_of e) t init_w) as [st|]; [|reflexivity]. destruct (Walker.res st); reflexivity.
    + subst o. reflexivity.
  - rewrite (time_cases e input Hi). destruct (parse R_dateTime (tokens e input)) as [t|].
    + destruct V as [c ->]. cbn [finish]. destruct (walk (wenv_of e) t init_w) as [st|]; [|reflexivity]. destruct (Walker.res st); reflexivity.
    + subst o. reflexivity.
Qed.

Lemma start_good c f e input w n : input <> [] -> scans (bad_rune e) (decode input) w -> depth (rule_of_func f) w <= n ->
  good c (mkJob f e input (Running (start n (rule_of_func f) w)) 0).
Proof.
  intros Hi Hw Hn. apply scans_iff in Hw. subst w. unfold good. cbn [j_func j_env j_input j_thread j_steps fine].
  eapply every_mono; [|apply (C48_all_replies (rule_of_func f) (tokens e input) n)].
  - intros o V. apply verdict_returns; assumption.
  - destruct f; [left | right]; reflexivity.
  - apply lex_stream.
  - exact Hn.
Qed.

Lemma sys_keeps s s' : sys_step s s' -> sound (fst s) -> Forall (good (fst s)) (snd s) ->
  sound (fst s') /\ Forall (good (fst s')) (snd s').
Proof.
  intros [c js f e input w n Hi Hw Hn | c js1 f e input t i js2 c' t' S0] K G; cbn [fst snd] in *.
  - split; [exact K|]. apply Forall_app. split; [exact G|]. constructor; [|constructor]. apply start_good; assumption.
  - destruct (step_keeps _ _ _ _ S0 K) as (K' & X & H). split; [exact K'|].
    apply Forall_app in G as [G1 G2]. pose proof (Forall_inv G2) as G3. apply Forall_inv_tail in G2.
    assert (E : forall l, Forall (good c) l -> Forall (good c') l).
    { intros l. apply Forall_impl. intros j. unfold good. apply fine_extends. exact X. }
    apply Forall_app. split; [apply E; exact G1|]. constructor; [|apply E; exact G2].
    unfold good in *. cbn [j_func j_env j_input j_thread j_steps] in *. apply H. exact G3.
Qed.

Lemma reachable_keeps s : reachable s -> sound (fst s) /\ Forall (good (fst s)) (snd s).
Proof.
  unfold reachable. intros H. assert (B : sound (fst (empty_cache, @nil job)) /\ Forall (good (fst (empty_cache, @nil job))) (snd (empty_cache, @nil job))).
  { split; [apply empty_sound | constructor]. }
  revert B. induction H as [s|s1 s2 s3 H1 _ IH]; [auto|]. intros [K G]. apply IH. apply (sys_keeps s1); assumption.
Qed.

(** A call that has ended returned what it returns when it is the only call: neither earlier calls nor calls
    at the same time can change a result, whatever the schedule. *)
Theorem C62_calls_do_not_interfere c js f e input o i :
  reachable (c, js) -> In (mkJob f e input (Running (End o)) i) js -> returns f e o = Some (alone f e input).
Proof.
  intros H Hj. apply reachable_keeps in H as [_ G]. cbn [fst snd] in G. rewrite Forall_forall in G. exact (G _ Hj).
Qed.

(** What is in the cache is at all times what the first stage would compute: an answer found after some tokens
    is the only alternative left after these tokens, and after tokens that end in an error edge there is none. *)
Theorem C62_cached_answers c js d id u id' :
  reachable (c, js) -> root c d = Some id -> leads_to c id u id' ->
  (exists nd, nth_error (nodes c) id' = Some nd /\ forall i, answer_at nd = Some i -> only_one d u i) /\
  (forall x k, link c id' (tt x) = Some Err -> ~ alive true d [] (u ++ [x]) k).
Proof.
  intros H R L. apply reachable_keeps in H as [K _]. cbn [fst] in K.
  assert (A : at_node c d id []) by (destruct (s_root _ K _ _ R) as (nd & E & S0); exists nd; split; [exact E | exact S0]).
  assert (A' : at_node c d id' u).
  { change u with ([] ++ u). revert A. generalize (@nil tok) as p. clear R. induction L as [id|id x id' u id'' E _ IH]; intros p A.
    - rewrite app_nil_r. exact A.
    - destruct (s_edge _ K _ _ _ E) as (nd & nd' & E1 & E2 & C). pose proof (at_next c c d id id' p x nd nd' (extends_refl c) E1 E2 C A) as A2.
      specialize (IH _ A2). rewrite <- app_assoc in IH. exact IH. }
  destruct A' as (nd & E & Q). split.
  - exists nd. split; [exact E|]. intros i Hi. destruct (s_decided _ K _ _ E i Hi) as [D1 D2].
    assert (Q0 : forall k, leads (cfg nd) [] k <-> alive true d [] u k) by (intros k; rewrite (Q [] k), app_nil_r; reflexivity).
    split; [apply Q0; exact D1|]. intros k Hk. apply D2, Q0. exact Hk.
  - intros x k El Hk. destruct (s_err _ K _ _ El) as (nd0 & E0 & B). assert (nd0 = nd) as -> by congruence.
    apply (B x [] k eq_refl). apply (Q [x] k). exact Hk.
Qed.

(** ** Calls end *)
Lemma reach_app wild s S u s1 S1 : reach wild s S u s1 S1 -> forall v s2 S2, reach wild s1 S1 v s2 S2 -> reach wild s S (u ++ v) s2 S2.
Proof.
  induction 1 as [s S | s t S u s' S' Hi H IH | s rs t S x u s' S' Hi Hr H IH | s b ix f S u s' S' Hi H IH
    | s f S u s' S' Hs H IH | s n b f u s' S' Hw Hs Hi H IH]; intros v s2 S2 R; cbn [app].
  - exact R.
  - eapply h_eps; eauto.
  - eapply h_tok; eauto.
  - eapply h_rule; eauto.
  - eapply h_ret; eauto.
  - eapply h_out; eauto.
Qed.

Lemma starts_here d : starts d (has true d [] []).
Proof.
  intros v i. split.
  - intros (s & S & s' & S' & (t & Et & R1) & R2). exists s', S', t. split; [exact Et|]. exact (reach_app _ _ _ _ _ _ R1 _ _ _ R2).
  - intros (s & S & t & Et & R). exists t, [], s, S. split; [|exact R]. exists t. split; [exact Et | constructor].
Qed.

Lemma not_blocked c t : finished t \/ exists c' t', step c t c' t'.
Proof.
  destruct t as [[o|d st w k|n t k]|d st w k id u v].
  - left. exists o. reflexivity.
  - right. eexists _, _. apply (t_new_root c d st w k (mkNode (has true d [] []) None)); [apply starts_here | intros i [=]].
  - right. eexists _, _. apply t_sync. apply fair_reply.
  - right. eexists _, _. apply t_second. apply some_second_answer.
Qed.

(** A call ends: it cannot take infinitely many steps, whatever the others do to the cache between them. *)
Theorem C62_calls_end (c c' : nat -> cache) (t : nat -> thread) : ~ forall i, step (c i) (t i) (c' i) (t (S i)).
Proof.
  intros H. assert (G : forall x, Acc own_step x -> forall i, t i <> x).
  { intros x A. induction A as [x _ IH]. intros i E. apply (IH (t (S i))) with (i := S i); [|reflexivity]. subst x. exists (c i), (c' i). apply H. }
  exact (G (t 0) (thread_ends (t 0)) 0 eq_refl).
Qed.

(** At every moment every call can run to its end by itself, without a step of any other call. *)
Theorem C62_calls_need_no_other js1 f e input t i js2 c :
  exists c' o i', clos_refl_trans_1n _ sys_step (c, js1 ++ mkJob f e input t i :: js2) (c', js1 ++ mkJob f e input (Running (End o)) i' :: js2).
Proof.
  revert c i. induction (thread_ends t) as [t _ IH]. intros c i. destruct (not_blocked c t) as [[o ->]|(c' & t' & S0)].
  - exists c, o, i. constructor.
  - destruct (IH t' ltac:(exists c, c'; exact S0) c' (S i)) as (c2 & o & i' & R). exists c2, o, i'. econstructor; [|exact R]. apply y_step. exact S0.
Qed.

(** Together: a call can begin at any moment, and then it can run to its end and returns what it returns alone. *)
Theorem C62_always_served c js f e input :
  reachable (c, js) -> input <> [] ->
  exists c' js' o i, reachable (c', js') /\ In (mkJob f e input (Running (End o)) i) js' /\ returns f e o = Some (alone f e input).
Proof.
  intros H Hi. destruct (C62_calls_need_no_other js f e input (Running (start (depth (rule_of_func f) (tokens e input)) (rule_of_func f) (tokens e input))) 0 [] c) as (c' & o & i & R).
  assert (R' : reachable (c', js ++ [mkJob f e input (Running (End o)) i])).
  { unfold reachable. apply clos_rt_rt1n. apply rt_trans with (c, js); [apply clos_rt1n_rt; exact H|].
    eapply rt_trans; [apply rt_step|apply clos_rt1n_rt; exact R]. apply y_call; [exact Hi | apply scans_iff; reflexivity | lia]. }
  exists c', (js ++ [mkJob f e input (Running (End o)) i]), o, i. split; [exact R'|].
  assert (I0 : In (mkJob f e input (Running (End o)) i) (js ++ [mkJob f e input (Running (End o)) i])) by (apply in_or_app; right; left; reflexivity).
  split; [exact I0|]. exact (C62_calls_do_not_interfere _ _ _ _ _ _ _ R' I0).
Qed.

(** ** Two calls that meet in the cache *)
Lemma reach_type wild s S w s' S' : reach wild s S w s' S' -> forall x y v, w = y :: v -> tt x = tt y -> reach wild s S (x :: v) s' S'.
Proof.
  induction 1 as [s S | s t S u s' S' Hi H IH | s rs t S x u s' S' Hi Hr H IH | s b ix f S u s' S' Hi H IH
    | s f S u s' S' Hs H IH | s n b f u s' S' Hw Hs Hi H IH]; intros x0 y v E T.
  - discriminate.
  - eapply h_eps; eauto.
  - injection E as -> ->. eapply h_tok; [exact Hi | rewrite T; exact Hr | exact H].
  - eapply h_rule; eauto.
  - eapply h_ret; eauto.
  - eapply h_out; eauto.
Qed.

Lemma reach_split wild s S w s' S' : reach wild s S w s' S' -> forall x v, w = x :: v ->
  exists s1 S1, reach wild s S [x] s1 S1 /\ reach wild s1 S1 v s' S'.
Proof.
  induction 1 as [s S | s t S u s' S' Hi H IH | s rs t S x u s' S' Hi Hr H IH | s b ix f S u s' S' Hi H IH
    | s f S u s' S' Hs H IH | s n b f u s' S' Hw Hs Hi H IH]; intros x0 v E.
  - discriminate.
  - destruct (IH _ _ E) as (s1 & S1 & R1 & R2). exists s1, S1. split; [eapply h_eps; eassumption | exact R2].
  - injection E as -> ->. exists t, S. split; [eapply h_tok; [exact Hi | exact Hr | constructor] | exact H].
  - destruct (IH _ _ E) as (s1 & S1 & R1 & R2). exists s1, S1. split; [eapply h_rule; eassumption | exact R2].
  - destruct (IH _ _ E) as (s1 & S1 & R1 & R2). exists s1, S1. split; [eapply h_ret; eassumption | exact R2].
  - destruct (IH _ _ E) as (s1 & S1 & R1 & R2). exists s1, S1. split; [eapply h_out; eassumption | exact R2].
Qed.

(** What computeTargetState stores. *)
(* /repo: ANTLR runtime, ParserATNSimulator.computeReachSet *)
Definition after (C : configs) (t : ttype) : configs := fun i s S => exists y s0 S0, tt y = t /\ C i s0 S0 /\ reach true s0 S0 [y] s S.

Lemma continues_after C t : continues C t (after C t).
Proof.
  intros x v i T. split.
  - intros (s & S & s' & S' & (y & s0 & S0 & Ty & H0 & R1) & R2). exists s0, S0, s', S'. split; [exact H0|].
    apply (reach_type true s0 S0 (y :: v) s' S' (reach_app _ _ _ _ _ _ R1 _ _ _ R2) x y v eq_refl). congruence.
  - intros (s & S & s' & S' & H0 & R). destruct (reach_split _ _ _ _ _ _ R x v eq_refl) as (s1 & S1 & R1 & R2).
    exists s1, S1, s', S'. split; [|exact R2]. exists x, s, S. auto.
Qed.

Lemma list_begins m w : exists k k', start (3 + m) R_addressList w = Test 634 (la w) k /\ k false = Ask 85 [] w k'.
Proof. eexists _, _. split; reflexivity. Qed.

(** Two calls at the same time, both at their first prediction.  The first one has put the root and an edge for
    an ASCII 'a' into the cache, the second one has followed them. *)
Example C62_two_calls e1 e2 : exists c js1 js2 w1 k1 v1 w2 k2 v2, reachable (c, [js1; js2]) /\
  root c 85 = Some 0 /\ link c 0 (la w1) = Some (To 1) /\ nth_error (nodes c) 1 <> None /\
  js1 = mkJob ParseAddressList_ e1 (bs "a@b") (Reading 85 [] w1 k1 1 [mkTok (la w1) 97%N] v1) 3 /\
  js2 = mkJob ParseAddressList_ e2 (bs "a.b@c") (Reading 85 [] w2 k2 1 [mkTok (la w2) 97%N] v2) 3.
Proof.
  set (x := mkTok (la (lex SkipBad [97%N])) 97%N).
  assert (W1 : exists v, tokens e1 (bs "a@b") = x :: v) by (unfold tokens; destruct (bad_rune e1); eexists; vm_compute; reflexivity).
  assert (W2 : exists v, tokens e2 (bs "a.b@c") = x :: v) by (unfold tokens; destruct (bad_rune e2); eexists; vm_compute; reflexivity).
  destruct W1 as [v1 W1]. destruct W2 as [v2 W2].
  set (w1 := tokens e1 (bs "a@b")) in *. set (w2 := tokens e2 (bs "a.b@c")) in *.
  destruct (list_begins (depth R_addressList w1) w1) as (h1 & k1 & B1 & B1').
  destruct (list_begins (depth R_addressList w2) w2) as (h2 & k2 & B2 & B2').
  set (n0 := mkNode (has true 85 [] []) None). set (n1 := mkNode (after (cfg n0) (tt x)) None).
  set (c1 := set_root (add_node empty_cache n0) 85 0).
  set (c2 := set_link (add_node c1 n1) 0 (tt x) (To 1)).
  assert (D0 : decided n0) by (intros i [=]). assert (D1 : decided n1) by (intros i [=]).
  exists c2. eexists _, _, w1, k1, v1, w2, k2, v2. split; [|split; [|split; [|split; [|split; reflexivity]]]].
  2: reflexivity.
  2: { rewrite W1. reflexivity. }
  2: discriminate.
  replace (la w1) with (tt x) by (rewrite W1; reflexivity). replace (la w2) with (tt x) by (rewrite W2; reflexivity).
  change (mkTok (tt x) 97%N) with x. unfold reachable.
  eapply Relation_Operators.rt1n_trans; [apply (y_call empty_cache [] ParseAddressList_ e1 (bs "a@b") w1 (3 + depth R_addressList w1)); [discriminate | apply scans_iff; reflexivity | cbn [rule_of_func]; lia]|].
  eapply Relation_Operators.rt1n_trans; [apply (y_call empty_cache _ ParseAddressList_ e2 (bs "a.b@c") w2 (3 + depth R_addressList w2)); [discriminate | apply scans_iff; reflexivity | cbn [rule_of_func]; lia]|].
  cbn [rule_of_func]. rewrite B1, B2. cbn [app].
  eapply Relation_Operators.rt1n_trans; [apply (y_step empty_cache []); apply (t_sync _ _ _ h1 false); intros _; reflexivity|]. rewrite B1'.
  eapply Relation_Operators.rt1n_trans; [apply (y_step empty_cache []); apply (t_new_root _ _ _ _ _ n0); [apply starts_here | exact D0]|].
  change (length (nodes empty_cache)) with 0. fold c1. cbn [app].
  eapply Relation_Operators.rt1n_trans; [apply (y_step c1 [_]); apply (t_sync _ _ _ h2 false); intros _; reflexivity|]. rewrite B2'. cbn [app].
  eapply Relation_Operators.rt1n_trans; [apply (y_step c1 [_]); apply (t_root _ _ _ _ _ 0); reflexivity|]. cbn [app].
  rewrite W1 at 2. rewrite W2 at 2.
  eapply Relation_Operators.rt1n_trans; [apply (y_step c1 []); apply (t_grow c1 85%N [] w1 k1 0 [] x v1 n0 n1); [reflexivity | apply continues_after | exact D1]|].
  change (length (nodes c1)) with 1. fold c2. cbn [app].
  eapply Relation_Operators.rt1n_trans; [apply (y_step c2 [_]); apply (t_edge c2 85%N [] w2 k2 0 [] x v2 1); reflexivity|].
  cbn [app]. apply Relation_Operators.rt1n_refl.
Qed.

(** An answer in the cache: a first character '<' settles decision 66, whatever follows and whatever is
    pending; the second call reads no more than that. *)
Example C62_cached st v k : exists c c' t, sound c /\ root c 66 = Some 0 /\
  step c (Reading 66 st (mkTok T_Less 60%N :: v) k 0 [] (mkTok T_Less 60%N :: v)) c t /\ step c t c' (Running (k (Some 1))).
Proof.
  set (x := mkTok T_Less 60%N). set (n0 := mkNode (has true 66 [] []) None). set (n1 := mkNode (after (cfg n0) (tt x)) (Some 1)).
  set (c := set_link (add_node (set_root (add_node empty_cache n0) 66 0) n1) 0 (tt x) (To 1)).
  assert (Q : forall i, leads (cfg n1) [] i <-> alive true 66 [] [x] i).
  { intros i. exact (iff_trans (continues_after (cfg n0) (tt x) x [] i eq_refl) (starts_here 66 [x] i)). }
  assert (O : only_one 66 [x] 1) by (apply (only_one_from _ _ _ (flat_map (lex1 SkipBad) (bs "a@b>"))); vm_compute; reflexivity).
  assert (D1 : decided n1).
  { intros i [= <-]. split; [apply Q, O|]. intros j Hj. apply O, Q, Hj. }
  exists c, c, (Reading 66 st (x :: v) k 1 [x] v). split; [|split; [reflexivity|split]].
  - unfold c. eapply sound_link; [apply sound_add; [eapply sound_root; [apply sound_add; [apply empty_sound | intros i [=]] | reflexivity | apply starts_here] | exact D1]
      | reflexivity | reflexivity | apply continues_after].
  - apply (t_edge c 66%N st (x :: v) k 0 [] x v 1). reflexivity.
  - apply (t_answer c 66%N st (x :: v) k 1 [x] v n1 1); reflexivity.
Qed.
