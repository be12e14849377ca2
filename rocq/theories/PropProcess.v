(** C62, C63, C65, continued: the exported functions when any number of calls, with recovery from syntax errors,
    share the lexer's and the parser's cache. *)
From Coq Require Import String List NArith ZArith Bool Arith Lia Relations.
From Verif Require Import Lexer Grammar Utf8 Strs Mime GoTime Parser Spec ParserFacts Static Cfws First LexFacts Walker Api GenSyntax GenAtn GenCode GenRun GenShape GenNet GenCheck GenFacts GenLex GenWit GenPredict GenCost GenCache GenLexCache PropGen PropPredict PropSize PropCost GenRecover GenRecEnd GenRecAsk GenRecCost GenRecShort PropRecover GenCacheRec PropCache.
Import ListNotations.

(** ** Statements *)

(** Where a call is.  Simplification: the token stream is filled before the rule function runs, in the code it is
    filled as far as the parser looks ahead. *)
(* /repo: parser.go:24-32, parser.go:47-55 *)
Inductive spot : Type := InLexer (t : lthread) | InParser (t : rthread).

(** A call that has begun: the function, its arguments, where it is, and how many steps it has taken. *)
Record live : Type := mkLive { v_func : func; v_env : env; v_input : list byte; v_spot : spot; v_steps : nat }.
Definition world := (lcache * cache * list live)%type.

(** A call begins, or one of the calls takes a step: in the lexer, from the lexer to the parser, in the parser or its
    error handler. *)
(* /repo: parser.go:17-60, parser/rfc5322_lexer.go:216-227, parser/rfc5322_parser.go:612-627, :872-892 *)
Inductive world_step : world -> world -> Prop :=
| w_call : forall lc c js f e input, input <> [] ->
    world_step (lc, c, js) (lc, c, js ++ [mkLive f e input (InLexer (LStart (decode input) [])) 0])
| w_lex : forall lc c js1 f e input t i js2 lc' t', lstep (bad_rune e) lc t lc' t' ->
    world_step (lc, c, js1 ++ mkLive f e input (InLexer t) i :: js2) (lc', c, js1 ++ mkLive f e input (InLexer t') (S i) :: js2)
| w_parse : forall lc c js1 f e input w i js2 n, rdepth (rule_of_func f) w <= n ->
    world_step (lc, c, js1 ++ mkLive f e input (InLexer (LDone w)) i :: js2)
      (lc, c, js1 ++ mkLive f e input (InParser (RRunning (rstart n (rule_of_func f) w))) (S i) :: js2)
| w_step : forall lc c js1 f e input t i js2 c' t', rstep c t c' t' ->
    world_step (lc, c, js1 ++ mkLive f e input (InParser t) i :: js2) (lc, c', js1 ++ mkLive f e input (InParser t') (S i) :: js2).

(** Everything that can happen since the process began. *)
Definition occurs (s : world) : Prop := clos_refl_trans_1n _ world_step (empty_lcache, empty_cache, []) s.

(** What parser.go makes of the end of the rule function. *)
(* /repo: parser.go:17-64 *)
Definition gives (f : func) (e : env) (o : routcome) : option reply :=
  match f with
  | ParseAddressList_ => option_map ReplyList (returned_list e o)
  | ParseDateTime_ => option_map ReplyTime (returned_time e o)
  end.

(** [makes p q o]: with some replies of the runtime and of its error handler the run [p] ends with [o], having made
    [q] requests. *)
(* /repo: specification *)
Inductive makes : rprog -> nat -> routcome -> Prop :=
| k_end : forall o, makes (REnd o) 0 o
| k_ask : forall d st w k y q o, PropRecover.reply d st w y -> makes (k y) q o -> makes (RAsk d st w k) (S q) o
| k_sync : forall n t k y q o, fair_sync n t y -> makes (k y) q o -> makes (RSync n t k) (S q) o
| k_inline : forall n t k y q o, fair_inline t y -> makes (k y) q o -> makes (RInline n t k) (S q) o
| k_skip : forall n t k i q o, makes (k i) q o -> makes (RSkip n t k) (S q) o.

(** The most steps that a call takes on an input of [n] bytes: at most four per character in the lexer; then at most
    600500 requests per token, each of which reads at most all the tokens. *)
Definition call_steps (n : nat) : Z := (4 * Z.of_nat n + 4 + 600500 * (Z.of_nat n + 2) * (Z.of_nat n + 3))%Z.

(** ** Proofs *)
Lemma rverdict_gives f e input o : input <> [] -> rverdict (rule_of_func f) (tokens e input) o -> gives f e o = Some (alone f e input).
Proof.
  intros Hi (fo & c & m & -> & V).
  assert (H : match parse (rule_of_func f) (tokens e input) with None => failed m = true | Some t => failed m = false /\ fo = [t] end).
  { destruct V as [[H1 H2]|(H1 & t & E & _ & S0)]; [apply parse_none in H2; rewrite H2; exact H1 | apply parse_selected in S0; rewrite S0; auto]. }
  clear V. destruct f; cbn [rule_of_func gives alone] in *; unfold returned_list, returned_time, returned.
  - rewrite (list_cases e input Hi). destruct (parse R_addressList (tokens e input)) as [t|]; [|rewrite H; reflexivity].
    destruct H as [-> ->]. destruct (walk (wenv_of e) t init_w) as [s|]; [|reflexivity]. destruct (Walker.res s); reflexivity.
  - rewrite (time_cases e input Hi). destruct (parse R_dateTime (tokens e input)) as [t|]; [|rewrite H; reflexivity].
    destruct H as [-> ->]. destruct (walk (wenv_of e) t init_w) as [s|]; [|reflexivity]. destruct (Walker.res s); reflexivity.
Qed.

Lemma makes_cost P p q o : makes p q o -> forall q0, rcost P q0 p -> P (q0 + Z.of_nat q)%Z o.
Proof.
  intros M. assert (E : forall q0 q, (q0 + Z.of_nat (S q) = q0 + 1 + Z.of_nat q)%Z) by lia.
  induction M as [o | d st w k y q o Hy M IH | n t k y q o Hy M IH | n t k y q o Hy M IH | n t k i q o M IH]; cbn [rcost]; intros q0 H.
  - rewrite Z.add_0_r. exact H.
  - rewrite E. destruct (reply_ok _ _ _ _ Hy) as [H1 H2]. apply IH. apply H; assumption.
  - rewrite E. apply IH. apply H. exact Hy.
  - rewrite E. apply IH. apply H. exact Hy.
  - rewrite E. apply IH. apply H.
Qed.

Lemma rule_start f : start_rule (rule_of_func f).
Proof. destruct f; [left | right]; reflexivity. Qed.

Lemma start_cost n f w : rdepth (rule_of_func f) w <= n -> rcost (fun q o => (q <= most_requests (length w))%Z) 0 (rstart n (rule_of_func f) w).
Proof.
  intros Hn. eapply rcost_mono; [|apply rcost_and; [apply (rstart_paid n _ w (rule_start f)) | apply (rstart_ends n _ _ Hn)]].
  intros q [f0 c0 m|c0 m|] [H1 H2]; [exact H1 | exact H1 | exfalso; apply H2; reflexivity].
Qed.

(** Whatever the runtime and its error handler reply, on inputs with and without syntax errors: the number of
    requests grows at most linearly with the input. *)
Theorem C63_recovering_requests f e input n q o : rdepth (rule_of_func f) (tokens e input) <= n ->
  makes (rstart n (rule_of_func f) (tokens e input)) q o -> (Z.of_nat q <= 600500 * (Z.of_nat (length input) + 2))%Z.
Proof.
  intros Hn M. pose proof (makes_cost _ _ _ _ M 0%Z (start_cost n f _ Hn)) as H. cbv beta in H. pose proof (tokens_length e input) as T.
  unfold most_requests in H. lia.
Qed.

(** The requests so far, and those to come. *)
Definition rwithin (l : nat) (M : Z) (b : nat) (i : nat) (t : rthread) : Prop :=
  exists q : nat,
  match t with
  | RRunning p => rsmall l (fun _ => True) p /\ i <= b + q * (l + 2) /\ rcost (fun q' o => (q' <= M)%Z) (Z.of_nat q) p
  | RReading d st w k id u v => w = u ++ v /\ length w <= l /\ (forall o, rsmall l (fun _ => True) (k o)) /\ i + S (length v) <= b + S q * (l + 2) /\
      forall o, right d st w o -> sensible d w o -> rcost (fun q' o => (q' <= M)%Z) (Z.of_nat q + 1) (k o)
  end.

Lemma rcost_now M p : asked (fun _ => True) p -> forall q, rcost (fun q' o => (q' <= M)%Z) q p -> (q <= M)%Z.
Proof.
  induction p as [o|d st w k IH|n t k IH|n t k IH|n t k IH]; cbn [asked rcost]; intros A q H.
  - exact H.
  - destruct A as [Hw A]. destruct (reply_ok _ _ _ _ (PropRecover.some_reply d st w Hw)) as [R1 R2]. specialize (IH _ (A _) _ (H _ R1 R2)). lia.
  - specialize (IH _ (A SyncOk) _ (H SyncOk ltac:(split; [auto | intros [=]]))). lia.
  - specialize (IH _ (A InlineThrow) _ (H InlineThrow ltac:(intros [=]))). lia.
  - specialize (IH _ (A 0) _ (H 0)). lia.
Qed.

Lemma rwithin_now l M b i t : rasks t -> rwithin l M b i t -> (Z.of_nat i <= Z.of_nat b + M * (Z.of_nat l + 2))%Z.
Proof.
  intros A [q H]. destruct t as [p|d st w k id u v]; cbn [rasks] in A.
  - destruct H as (_ & H1 & H2). apply rcost_now in H2; [|exact A]. nia.
  - destruct A as [Hw A]. destruct H as (_ & _ & _ & H1 & H2). destruct (reply_ok _ _ _ _ (PropRecover.some_reply d st w Hw)) as [R1 R2].
    pose proof (rcost_now _ _ (A _) _ (H2 _ R1 R2)) as L. nia.
Qed.

(** A reply that the cache gives, or the second stage, is one that is allowed. *)
Lemma rstep_within c t c' t' l M b i : rstep c t c' t' -> sound c -> (exists P, rfine P c t) -> rwithin l M b i t -> rwithin l M b (S i) t'.
Proof.
  intros H K [P F].
  assert (Ro : forall d st w k id' q, length w <= l /\ (forall r, rsmall l (fun _ => True) (k r)) -> i <= b + q * (l + 2) ->
    rcost (fun q' o => (q' <= M)%Z) (Z.of_nat q) (RAsk d st w k) -> rwithin l M b (S i) (RReading d st w k id' [] w)).
  { intros d st w k id' q [G1 G2] G3 G4. exists q. split; [reflexivity|]. split; [exact G1|]. split; [exact G2|]. split; [cbn [Nat.mul]; lia | exact G4]. }
  assert (Re : forall d st w k id id' u x v, rwithin l M b i (RReading d st w k id u (x :: v)) -> rwithin l M b (S i) (RReading d st w k id' (u ++ [x]) v)).
  { intros d st w k id id' u x v (q & -> & G1 & G2 & G3 & G4). exists q. split; [rewrite <- app_assoc; reflexivity|]. split; [exact G1|]. split; [exact G2|].
    split; [cbn [length] in G3; lia | exact G4]. }
  assert (An : forall d st w k id u v o, rwithin l M b i (RReading d st w k id u v) -> right d st w o -> sensible d w o -> rwithin l M b (S i) (RRunning (k o))).
  { intros d st w k id u v o (q & _ & G1 & G2 & G3 & G4) R1 R2. exists (S q). split; [apply G2|]. split; [lia|]. rewrite Nat2Z.inj_succ. specialize (G4 o R1 R2). exact G4. }
  destruct H as [c d st w k id E | c d st w k nd S0 D | c d st w k id u x v id' E | c d st w k id u x v o E R
    | c d st w k id u x v nd id' nd' E E' C | c d st w k id u x v nd nd' E C D | c d st w k id u x v nd o E B R
    | c d st w k id u x v nd i0 E A | c d st w k id u v o A | c n t k y Fr | c n t k y Fr | c n t k y]; intros W.
  - destruct W as (q & [W1 W2] & W3 & W4). eapply Ro; [split; [exact W1 | exact W2] | exact W3 | exact W4].
  - destruct W as (q & [W1 W2] & W3 & W4). eapply Ro; [split; [exact W1 | exact W2] | exact W3 | exact W4].
  - exact (Re _ _ _ _ _ _ _ _ _ W).
  - destruct F as (-> & _ & A). destruct (s_err _ K _ _ E) as (nd & E1 & B). destruct (reply_ok _ _ _ _ (error_reply d st u x v o nd c id E1 B R A)) as [R1 R2]. exact (An _ _ _ _ _ _ _ _ W R1 R2).
  - exact (Re _ _ _ _ _ _ _ _ _ W).
  - exact (Re _ _ _ _ _ _ _ _ _ W).
  - destruct F as (-> & _ & A). destruct (reply_ok _ _ _ _ (error_reply d st u x v o nd c id E B R A)) as [R1 R2]. exact (An _ _ _ _ _ _ _ _ W R1 R2).
  - destruct F as (-> & _ & A0). destruct (reply_ok _ _ _ _ (answer_reply d st u x v i0 nd c id K E A A0)) as [R1 R2]. exact (An _ _ _ _ _ _ _ _ W R1 R2).
  - destruct (reply_ok _ _ _ _ (second_is_reply _ _ _ _ A)) as [R1 R2]. exact (An _ _ _ _ _ _ _ _ W R1 R2).
  - destruct W as (q & W1 & W2 & W3). exists (S q). split; [apply W1|]. split; [lia|]. rewrite Nat2Z.inj_succ. exact (W3 y Fr).
  - destruct W as (q & W1 & W2 & W3). exists (S q). split; [apply W1|]. split; [lia|]. rewrite Nat2Z.inj_succ. exact (W3 y Fr).
  - destruct W as (q & W1 & W2 & W3). exists (S q). split; [apply W1|]. split; [lia|]. rewrite Nat2Z.inj_succ. exact (W3 y).
Qed.

Definition sane (lc : lcache) (c : cache) (j : live) : Prop :=
  v_input j <> [] /\
  match v_spot j with
  | InLexer t => lfine (bad_rune (v_env j)) (tokens (v_env j) (v_input j)) lc t /\ v_steps j + lmost t <= 4 * length (v_input j) + 3
  | InParser t => rfine (fun o => gives (v_func j) (v_env j) o = Some (alone (v_func j) (v_env j) (v_input j))) c t /\ rasks t /\
      rwithin (length (tokens (v_env j) (v_input j))) (most_requests (length (tokens (v_env j) (v_input j)))) (4 * length (v_input j) + 4) (v_steps j) t
  end.

Lemma sane_more lc lc' c c' j : lextends lc lc' -> extends c c' -> sane lc c j -> sane lc' c' j.
Proof.
  intros X Y [Hi H]. split; [exact Hi|]. destruct (v_spot j) as [t|t]; destruct H as [H1 H2]; split; auto.
  - exact (lfine_extends _ _ _ _ _ X H1).
  - exact (rfine_extends _ _ _ _ Y H1).
Qed.

Definition all_sane (s : world) : Prop :=
  lsound (fst (fst s)) /\ sound (snd (fst s)) /\ Forall (sane (fst (fst s)) (snd (fst s))) (snd s).

Lemma split_sane lc c lc' c' js1 j js2 j' : lextends lc lc' -> extends c c' -> Forall (sane lc c) (js1 ++ j :: js2) ->
  (sane lc c j -> sane lc' c' j') -> Forall (sane lc' c') (js1 ++ j' :: js2).
Proof.
  intros X Y G H. apply Forall_app in G as [G1 G2]. pose proof (Forall_inv G2) as G3. apply Forall_inv_tail in G2.
  assert (E : forall l, Forall (sane lc c) l -> Forall (sane lc' c') l) by (intros l; apply Forall_impl; intros a; apply sane_more; assumption).
  apply Forall_app. split; [apply E; exact G1|]. constructor; [apply H; exact G3 | apply E; exact G2].
Qed.

Lemma world_keeps s s' : world_step s s' -> all_sane s -> all_sane s'.
Proof.
  intros [lc c js f e input Hi | lc c js1 f e input t i js2 lc' t' S0 | lc c js1 f e input w i js2 n Hn | lc c js1 f e input t i js2 c' t' S0] (K1 & K2 & G);
    unfold all_sane; cbn [fst snd] in *.
  - split; [exact K1|]. split; [exact K2|]. apply Forall_app. split; [exact G|]. constructor; [|constructor]. split; [exact Hi|].
    cbn [v_spot v_env v_input v_steps]. split; [reflexivity|]. cbn [lmost]. pose proof (decode_length input). lia.
  - destruct (lstep_keeps _ _ _ _ _ S0 K1) as (K' & X & H). split; [exact K'|]. split; [exact K2|].
    apply (split_sane lc c lc' c js1 _ js2 _ X (extends_refl c) G). intros [Hi [F L]]. split; [exact Hi|]. cbn [v_spot v_env v_input v_steps] in *. split; [apply H; exact F|].
    pose proof (lstep_less _ _ _ _ _ _ S0 K1 F). lia.
  - split; [exact K1|]. split; [exact K2|]. apply (split_sane lc c lc c js1 _ js2 _ (lextends_refl lc) (extends_refl c) G).
    intros [Hi [F L]]. split; [exact Hi|]. cbn [v_spot v_func v_env v_input v_steps lfine lmost] in *. subst w.
    pose proof (lex_stream (bad_rune e) (decode input)) as St. change (lex (bad_rune e) (decode input)) with (tokens e input) in St.
    split; [|split].
    + cbn [rfine]. eapply revery_mono; [|apply (rstart_verdict n _ _ (rule_start f) St Hn)]. intros o. apply rverdict_gives. exact Hi.
    + apply start_asked. exact St.
    + exists 0. split; [apply rstart_small|]. split; [lia|].
      apply start_cost. exact Hn.
  - destruct (rstep_keeps _ _ _ _ S0 K2) as (K' & X & H & H'). split; [exact K1|]. split; [exact K'|].
    apply (split_sane lc c lc c' js1 _ js2 _ (lextends_refl lc) X G). intros [Hi [F [A L]]]. split; [exact Hi|]. cbn [v_spot v_func v_env v_input v_steps] in *.
    split; [apply H; exact F|]. split; [apply H'; exact A|]. exact (rstep_within _ _ _ _ _ _ _ _ S0 K2 (ex_intro (fun P => rfine P c t) _ F) L).
Qed.

Lemma occurs_sane s : occurs s -> all_sane s.
Proof.
  unfold occurs. intros H. assert (B : all_sane (empty_lcache, empty_cache, @nil live)).
  { split; [apply empty_lsound|]. split; [apply empty_sound | constructor]. }
  revert B. induction H as [s|s1 s2 s3 H1 _ IH]; [auto|]. intros B. apply IH. exact (world_keeps s1 s2 H1 B).
Qed.

Lemma live_sane lc c js j : occurs (lc, c, js) -> In j js -> sane lc c j.
Proof. intros H Hj. apply occurs_sane in H as (_ & _ & G). cbn [fst snd] in G. rewrite Forall_forall in G. exact (G _ Hj). Qed.

(** A call that has ended returned what it returns when it is the only call, whatever other calls have put into the
    two caches before and meanwhile, also while they were recovering from syntax errors. *)
Theorem C62_recovering_calls_do_not_interfere lc c js f e input o i :
  occurs (lc, c, js) -> In (mkLive f e input (InParser (RRunning (REnd o))) i) js -> gives f e o = Some (alone f e input).
Proof. intros H Hj. destruct (live_sane _ _ _ _ H Hj) as [_ [F _]]. exact F. Qed.

(** In every history and every schedule a call takes at most so many steps, on inputs with and without errors. *)
Theorem C63_recovering_steps lc c js f e input p i : occurs (lc, c, js) -> In (mkLive f e input p i) js -> (Z.of_nat i <= call_steps (length input))%Z.
Proof.
  intros H Hj. destruct (live_sane _ _ _ _ H Hj) as [_ F]. cbn [v_spot v_env v_input v_steps v_func] in F. unfold call_steps. destruct p as [t|t].
  - destruct F as [F L]. nia.
  - destruct F as [F [A L]]. apply rwithin_now in L; [|exact A]. pose proof (tokens_length e input) as T. unfold most_requests in L.
    set (a := length (tokens e input)) in *. set (n := length input) in *.
    assert (600500 * (Z.of_nat a + 1) * (Z.of_nat a + 2) <= 600500 * (Z.of_nat n + 2) * (Z.of_nat n + 3))%Z by nia. lia.
Qed.

(** The lexer runs to its end. *)
Lemma lexer_runs c js1 f e input js2 : forall n lc t i, lmost t <= n -> all_sane (lc, c, js1 ++ mkLive f e input (InLexer t) i :: js2) ->
  exists lc' i', clos_refl_trans_1n _ world_step (lc, c, js1 ++ mkLive f e input (InLexer t) i :: js2)
    (lc', c, js1 ++ mkLive f e input (InLexer (LDone (tokens e input))) i' :: js2).
Proof.
  induction n as [n IH] using (well_founded_induction lt_wf). intros lc t i Hn H.
  pose proof H as (K & K2 & G). cbn [fst snd] in *. apply Forall_app in G as [_ G]. apply Forall_inv in G as [Hi [F _]]. cbn [v_spot v_env v_input v_steps] in F.
  destruct (lnot_blocked _ _ _ _ K F) as [[w ->]|(lc' & t' & S0)].
  - cbn [lfine] in F. subst w. exists lc, i. constructor.
  - pose proof (w_lex lc c js1 f e input t i js2 lc' t' S0) as S1. pose proof (lstep_less _ _ _ _ _ _ S0 K F) as L.
    destruct (IH (lmost t') ltac:(lia) lc' t' (S i) ltac:(lia) (world_keeps _ _ S1 H)) as (lc2 & i' & R). exists lc2, i'. econstructor; [exact S1 | exact R].
Qed.

Lemma steps_sane s s' : clos_refl_trans_1n _ world_step s s' -> all_sane s -> all_sane s'.
Proof. induction 1 as [s|s1 s2 s3 H1 _ IH]; [auto|]. intros B. apply IH. exact (world_keeps s1 s2 H1 B). Qed.

Lemma steps_app (s1 s2 s3 : world) : clos_refl_trans_1n _ world_step s1 s2 -> clos_refl_trans_1n _ world_step s2 s3 -> clos_refl_trans_1n _ world_step s1 s3.
Proof. intros H1 H2. apply clos_rt_rt1n. eapply rt_trans; apply clos_rt1n_rt; eassumption. Qed.

(** At every moment every call can run to its end by itself, without a step of any other call. *)
Theorem C62_recovering_calls_need_no_other lc c js1 f e input p i js2 : occurs (lc, c, js1 ++ mkLive f e input p i :: js2) ->
  exists lc' c' o i', clos_refl_trans_1n _ world_step (lc, c, js1 ++ mkLive f e input p i :: js2)
    (lc', c', js1 ++ mkLive f e input (InParser (RRunning (REnd o))) i' :: js2).
Proof.
  intros H. apply occurs_sane in H.
  assert (P' : forall lc t c i, rasks t -> sound c -> exists lc' c' o i', clos_refl_trans_1n _ world_step (lc, c, js1 ++ mkLive f e input (InParser t) i :: js2)
    (lc', c', js1 ++ mkLive f e input (InParser (RRunning (REnd o))) i' :: js2)).
  { clear. intros lc t. induction (rthread_ends t) as [t _ IH]. intros c i A K. destruct (rnot_blocked c t A) as [[o ->]|(c' & t' & S0)].
    - exists lc, c, o, i. constructor.
    - destruct (rstep_keeps _ _ _ _ S0 K) as (K' & _ & _ & A'). destruct (IH t' ltac:(exists c, c'; exact S0) c' (S i) (A' A) K') as (lc2 & c2 & o & i' & R).
      exists lc2, c2, o, i'. econstructor; [|exact R]. apply w_step. exact S0. }
  destruct p as [t|t].
  - destruct (lexer_runs c js1 f e input js2 _ lc t i (le_n _) H) as (lc1 & i1 & R1). destruct H as (_ & K & _). cbn [fst snd] in K.
    destruct (P' lc1 (RRunning (rstart (rdepth (rule_of_func f) (tokens e input)) (rule_of_func f) (tokens e input))) c (S i1)) as (lc2 & c2 & o & i' & R); [|exact K|].
    + apply start_asked. apply lex_stream.
    + exists lc2, c2, o, i'. eapply steps_app; [exact R1|]. econstructor; [|exact R]. apply w_parse. apply le_n.
  - destruct H as (_ & K & G). cbn [fst snd] in *. apply Forall_app in G as [_ G]. apply Forall_inv in G as [_ [_ [A _]]]. apply P'; assumption.
Qed.

(** A call can begin at any moment, and then it can run to its end and returns what it returns alone. *)
Theorem C62_recovering_always_served lc c js f e input : occurs (lc, c, js) -> input <> [] ->
  exists lc' c' js' o i, occurs (lc', c', js') /\ In (mkLive f e input (InParser (RRunning (REnd o))) i) js' /\ gives f e o = Some (alone f e input).
Proof.
  intros H Hi. assert (H1 : occurs (lc, c, js ++ [mkLive f e input (InLexer (LStart (decode input) [])) 0])).
  { unfold occurs in *. apply clos_rt_rt1n. apply rt_trans with (lc, c, js); [apply clos_rt1n_rt; exact H|]. apply rt_step. apply w_call. exact Hi. }
  destruct (C62_recovering_calls_need_no_other lc c js f e input _ _ [] H1) as (lc' & c' & o & i & R).
  assert (R' : occurs (lc', c', js ++ [mkLive f e input (InParser (RRunning (REnd o))) i])).
  { unfold occurs in *. apply clos_rt_rt1n. eapply rt_trans; apply clos_rt1n_rt; [exact H1 | exact R]. }
  assert (I0 : In (mkLive f e input (InParser (RRunning (REnd o))) i) (js ++ [mkLive f e input (InParser (RRunning (REnd o))) i])) by (apply in_or_app; right; left; reflexivity).
  exists lc', c', (js ++ [mkLive f e input (InParser (RRunning (REnd o))) i]), o, i. split; [exact R'|]. split; [exact I0|].
  exact (C62_recovering_calls_do_not_interfere _ _ _ _ _ _ _ _ R' I0).
Qed.

(** ** The hypotheses can be met *)
Lemma time_begins m w : exists k k', rstart (3 + m) R_dateTime w = RSync 363 (la w) k /\
  k SyncOk = RAsk 34 [] w k' /\ exists k2, k SyncDelete = RAsk 34 [] (consume w) k2.
Proof. eexists _, _. split; [reflexivity|]. split; [reflexivity|]. eexists. reflexivity. Qed.

(** Two calls at the same time.  The first one has met an error, has deleted the '@', and has put the root of the
    next prediction into the parser's cache; the second one, on an input without an error, has found it there. *)
Example C62_recovering_shared e1 e2 : exists lc c w1 k1 i1 w2 k2 i2, occurs (lc, c,
    [mkLive ParseDateTime_ e1 (bs "@1Jan20 10:10") (InParser (RReading 34 [] w1 k1 0 [] w1)) i1;
     mkLive ParseDateTime_ e2 (bs "1Jan20 10:10") (InParser (RReading 34 [] w2 k2 0 [] w2)) i2]) /\
  tokens e1 (bs "@1Jan20 10:10") = mkTok T_At 64%N :: w1 /\ tokens e2 (bs "1Jan20 10:10") = w2 /\ root c 34 = Some 0.
Proof.
  set (s1 := bs "@1Jan20 10:10"). set (s2 := bs "1Jan20 10:10").
  assert (W1 : exists v, tokens e1 s1 = mkTok T_At 64%N :: v) by (unfold tokens; destruct (bad_rune e1); eexists; vm_compute; reflexivity). destruct W1 as [w1 W1].
  set (w2 := tokens e2 s2).
  set (st0 := fun f e s => mkLive f e s (InLexer (LStart (decode s) [])) 0).
  assert (O1 : occurs (empty_lcache, empty_cache, [st0 ParseDateTime_ e1 s1; st0 ParseDateTime_ e2 s2])).
  { unfold occurs. eapply Relation_Operators.rt1n_trans; [apply (w_call empty_lcache empty_cache [] ParseDateTime_ e1 s1); discriminate|].
    eapply Relation_Operators.rt1n_trans; [apply (w_call empty_lcache empty_cache _ ParseDateTime_ e2 s2); discriminate|]. apply Relation_Operators.rt1n_refl. }
  pose proof (occurs_sane _ O1) as N1.
  destruct (lexer_runs empty_cache [] ParseDateTime_ e1 s1 [st0 ParseDateTime_ e2 s2] _ _ _ _ (le_n _) N1) as (lc1 & i1 & R1). cbn [app] in R1.
  pose proof (steps_sane _ _ R1 N1) as N2.
  destruct (lexer_runs empty_cache [mkLive ParseDateTime_ e1 s1 (InLexer (LDone (tokens e1 s1))) i1] ParseDateTime_ e2 s2 [] _ _ _ _ (le_n _) N2) as (lc2 & i2 & R2). cbn [app] in R2.
  set (m1 := rdepth R_dateTime (tokens e1 s1)). set (m2 := rdepth R_dateTime w2).
  destruct (time_begins m1 (tokens e1 s1)) as (h1 & k1 & B1 & _ & k1' & C1). destruct (time_begins m2 w2) as (h2 & k2 & B2 & C2 & _).
  set (n0 := mkNode (has true 34 [] []) None). set (c1 := set_root (add_node empty_cache n0) 34 0).
  exists lc2, c1, w1, k1'. eexists. exists w2, k2. eexists. split; [|split; [exact W1 | split; reflexivity]].
  unfold occurs in *. eapply steps_app; [exact O1|]. eapply steps_app; [exact R1|]. eapply steps_app; [exact R2|].
  eapply Relation_Operators.rt1n_trans; [apply (w_parse lc2 empty_cache [] ParseDateTime_ e1 s1 (tokens e1 s1) i1 _ (3 + m1)); unfold m1; cbn [rule_of_func]; lia|].
  cbn [rule_of_func]. rewrite B1. cbn [app].
  eapply Relation_Operators.rt1n_trans; [apply (w_step lc2 empty_cache []); apply (r_sync _ _ _ h1 SyncDelete)|].
  { rewrite W1. cbn [la tt]. split; [|intros _; discriminate]. intros Hn. pose proof (proj2 some_runtime_ok 363%N T_At Hn) as F. vm_compute in F. discriminate. }
  rewrite C1. cbn [app].
  eapply Relation_Operators.rt1n_trans; [apply (w_step lc2 empty_cache []); apply (r_new_root empty_cache 34 [] _ k1' n0); [apply starts_here | intros i [=]]|].
  rewrite W1. change (consume (mkTok T_At 64%N :: w1)) with w1. change (length (nodes empty_cache)) with 0. fold c1. cbn [app].
  eapply Relation_Operators.rt1n_trans; [apply (w_parse lc2 c1 [_] ParseDateTime_ e2 s2 w2 i2 [] (3 + m2)); unfold m2; cbn [rule_of_func]; lia|].
  cbn [rule_of_func]. rewrite B2.
  eapply Relation_Operators.rt1n_trans; [apply (w_step lc2 c1 [_]); apply (r_sync _ _ _ h2 SyncOk); split; [auto | intros [=]]|].
  rewrite C2. eapply Relation_Operators.rt1n_trans; [apply (w_step lc2 c1 [_]); apply (r_root c1 34 [] w2 k2 0); reflexivity|].
  cbn [app]. apply Relation_Operators.rt1n_refl.
Qed.

(** There are such runs, with and without errors. *)
Lemma asked_makes P p : asked P p -> exists q o, makes p q o.
Proof.
  induction p as [o|d st w k IH|n t k IH|n t k IH|n t k IH]; cbn [asked]; intros H.
  - exists 0, o. constructor.
  - destruct H as [Hw H]. destruct (IH _ (H (first_alt d st w))) as (q & o & Ho). exists (S q), o. eapply k_ask; [apply PropRecover.some_reply; exact Hw | exact Ho].
  - destruct (some_sync n t) as [y Hy]. destruct (IH _ (H y)) as (q & o & Ho). exists (S q), o. eapply k_sync; eassumption.
  - destruct (IH _ (H InlineThrow)) as (q & o & Ho). exists (S q), o. apply (k_inline _ _ _ InlineThrow); [intros [=] | exact Ho].
  - destruct (IH _ (H 0)) as (q & o & Ho). exists (S q), o. apply (k_skip _ _ _ 0). exact Ho.
Qed.

Example C63_recovering_met e : let w := tokens e (bs "@1Jan20 10:10") in exists n q f c m, rdepth R_dateTime w <= n /\
  makes (rstart n R_dateTime w) q (RDone f c m) /\ 1 <= q /\ failed m = true.
Proof.
  cbv zeta. set (w := tokens e (bs "@1Jan20 10:10")). set (m0 := rdepth R_dateTime w).
  pose proof (lex_stream (bad_rune e) (decode (bs "@1Jan20 10:10"))) as St. change (stream w) in St.
  destruct (asked_makes _ _ (start_asked (3 + m0) R_dateTime w St)) as (q & o & M).
  assert (My : may_end (rstart (3 + m0) R_dateTime w) o) by (clear - M; induction M; [constructor | eapply me_ask | eapply me_sync | eapply me_inline | eapply me_skip]; eassumption).
  destruct (revery_may _ _ (rstart_verdict (3 + m0) R_dateTime w (or_intror eq_refl) St ltac:(unfold m0; lia)) o My) as (f & c & m & -> & V).
  exists (3 + m0), q, f, c, m. split; [unfold m0; lia|]. split; [exact M|]. split.
  - destruct (time_begins m0 w) as (h & k & B & _). rewrite B in M. inversion M. lia.
  - destruct V as [[V _]|(_ & t & _ & _ & S0)]; [exact V|]. exfalso. apply parse_selected in S0. revert S0. unfold w, tokens. destruct (bad_rune e); vm_compute; discriminate.
Qed.
