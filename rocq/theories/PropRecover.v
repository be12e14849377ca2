(** C65: after a syntax error the generated parser goes on, ends, and the error comes out. *)
From Coq Require Import String List NArith ZArith Bool Arith Lia FMapPositive.
From Verif Require Import Lexer Grammar Utf8 Strs Mime GoTime Parser Spec ParserFacts Static Cfws First LexFacts Walker Api GenSyntax GenAtn GenCode GenRun GenShape GenNet GenCheck GenFacts GenLex GenWit GenPredict PropGen PropPredict GenRecover GenRecLike GenRecEnd GenRecAsk.
Import ListNotations.

(** ** The replies of the runtime *)

(** Alternative [i], begun with stack [S], can have left the rule of the decision before the end of [u]. *)
(* /repo: ANTLR runtime, ParserATNSimulator.getAltThatFinishedDecisionEntryRule *)
Definition finished_rule (wild : bool) (d : N) (S : list N) (u : word) (i : nat) : Prop :=
  exists t s u1 u2, alternative d i = Some t /\ u = u1 ++ u2 /\ reach wild t S u1 s [] /\ is_stop s = true.

(** What is chosen from when no alternative can go on after [u]: alternatives that left the rule.  Whether a
    configuration left the rule is kept with it, but configurations that differ only in this share a node of the
    cache; so every alternative that could read [u] is allowed as well. *)
(* /repo: ANTLR runtime, ParserATNSimulator.getAltThatFinishedDecisionEntryRule *)
Definition left_over (wild : bool) (d : N) (S : list N) (u : word) (i : nat) : Prop :=
  (u <> [] /\ alive wild d S u i) \/ finished_rule wild d S u i.

(** What AdaptivePredict replies before the tokens [w]: as GenPredict.answer, with at least one token read,
    and with what is replied when no alternative can read the next token [x]: an alternative that left the
    rule before [x] (see [left_over]), or an error. *)
(* /repo: ANTLR runtime, ParserATNSimulator.execATN, execATNWithFullContext,
   getSynValidOrSemInvalidAltThatFinishedDecisionEntryRule *)
Inductive reply (d : N) (st : list N) (w : word) : option nat -> Prop :=
| y_first : forall u x v i, w = u ++ x :: v -> only_one d (u ++ [x]) i -> reply d st w (Some i)
| y_first_error : forall u x v o, w = u ++ x :: v -> (forall k, ~ alive true d [] (u ++ [x]) k) ->
    (forall i, o = Some i -> left_over true d [] u i) -> reply d st w o
| y_second : forall u x v i, w = u ++ x :: v -> as_good d st (u ++ [x]) i -> reply d st w (Some i)
| y_second_error : forall u x v o, w = u ++ x :: v -> (forall k, ~ alive false d (map return_state st) (u ++ [x]) k) ->
    (forall i, o = Some i -> left_over false d (map return_state st) u i) -> reply d st w o
| y_end : forall u x i, w = u ++ [x] -> can_finish d st w i -> (forall j, j < i -> ~ can_finish d st w j) -> reply d st w (Some i)
| y_end_error : forall u x o, w = u ++ [x] -> (forall k, ~ can_finish d st w k) ->
    (forall i, o = Some i -> left_over false d (map return_state st) u i) -> reply d st w o.

(** [may_end p o]: with some replies of the runtime and of the error handler, the run [p] ends with [o]. *)
(* /repo: specification *)
Inductive may_end : rprog -> routcome -> Prop :=
| me_end : forall o, may_end (REnd o) o
| me_ask : forall d st w k y o, reply d st w y -> may_end (k y) o -> may_end (RAsk d st w k) o
| me_sync : forall n t k y o, fair_sync n t y -> may_end (k y) o -> may_end (RSync n t k) o
| me_inline : forall n t k y o, fair_inline t y -> may_end (k y) o -> may_end (RInline n t k) o
| me_skip : forall n t k i o, may_end (k i) o -> may_end (RSkip n t k) o.

(** ** The exported functions with recovery *)

(** ParseAddressList and ParseDateTime as parser.go writes them, after the rule function has ended with [o]. *)
(* /repo: parser.go:32-41, parser.go:55-64 *)
Definition returned {A} (nores : A) (get : wres -> option A) (e : env) (o : routcome) : option (Api.outcome A) :=
  match o with
  | RFuel => None
  | RRaise _ _ => Some Panic
  | RDone f _ m =>
      if failed m then Some (Ret nores (Some ESyntax)) else
      match f with
      | [t] =>
          match walk (wenv_of e) t init_w with
          | Some st => match get (Walker.res st) with Some v => Some (Ret v (err st)) | None => Some Panic end
          | None => Some Panic
          end
      | _ => Some Panic
      end
  end.
(* /repo: parser.go:32-41 *)
Definition returned_list : env -> routcome -> option (Api.outcome slice) :=
  returned None (fun x => match x with ResList s => Some s | _ => None end).
(* /repo: parser.go:55-64 *)
Definition returned_time : env -> routcome -> option (Api.outcome time) :=
  returned zero_time (fun x => match x with ResTime v => Some v | _ => None end).

(** ** Proofs *)

Lemma next_bare s S o : next s S o -> forall S1 S2, S = S1 ++ S2 -> next s S1 o \/ next s S1 None.
Proof.
  induction 1 as [s Hs | s f S o Hs H IH | s t S o Hi H IH | s rs t S x Hi Hr | s b ix f S o Hi H IH]; intros S1 S2 E.
  - symmetry in E. apply app_eq_nil in E as [-> ->]. left. constructor. exact Hs.
  - destruct S1 as [|f1 S1]; [right; constructor; exact Hs|]. injection E as <- E. destruct (IH S1 S2 E); [left | right]; apply n_ret; assumption.
  - destruct (IH S1 S2 E); [left | right]; eapply n_eps; eassumption.
  - left. eapply n_tok; eassumption.
  - destruct (IH (f :: S1) S2) as [K|K]; [cbn [app]; rewrite E; reflexivity | left | right]; eapply n_rule; eassumption.
Qed.

Lemma reach_nil wild s S u s' S' : reach wild s S u s' S' -> u = [] -> S' = [] -> is_stop s' = true -> next s S None.
Proof.
  induction 1 as [s S | s t S u s' S' Hi H IH | s rs t S x u s' S' Hi Hr H IH | s b ix f S u s' S' Hi H IH
    | s f S u s' S' Hs H IH | s n b f u s' S' Hw Hs Hi H IH]; intros E1 E2 E3.
  - subst S. constructor. exact E3.
  - eapply n_eps; [exact Hi | apply IH; assumption].
  - discriminate.
  - eapply n_rule; [exact Hi | apply IH; assumption].
  - apply n_ret; [exact Hs | apply IH; assumption].
  - constructor. exact Hs.
Qed.

Lemma bare t S o : next t S o -> next t [] o \/ next t [] None.
Proof. intros H. apply (next_bare t S o H [] S). reflexivity. Qed.

Lemma alive_sensible wild d S u x w i : alive wild d S (x :: u) i -> la w = tt x ->
  exists t, alternative d i = Some t /\ (next t [] (Some (la w)) \/ next t [] None).
Proof.
  intros (s & S' & t & Et & R) El. exists t. split; [exact Et|]. rewrite El.
  destruct (reach_next _ _ _ _ _ _ R x u eq_refl) as [H|H]; apply bare in H; tauto.
Qed.

Lemma finished_sensible wild d S u v w i : w = u ++ v -> finished_rule wild d S u i ->
  exists t, alternative d i = Some t /\ (next t [] (Some (la w)) \/ next t [] None).
Proof.
  intros Ew (t & s & u1 & u2 & Et & Eu & R & Hs). exists t. split; [exact Et|]. destruct u1 as [|x u1].
  - right. pose proof (reach_nil _ _ _ _ _ _ R eq_refl eq_refl Hs) as H. apply bare in H. tauto.
  - subst u w. cbn [app la]. destruct (reach_next _ _ _ _ _ _ R x u1 eq_refl) as [H|H]; apply bare in H; tauto.
Qed.

Lemma path_sensible d st w i : w <> [] -> can_finish d st w i -> exists t, alternative d i = Some t /\ (next t [] (Some (la w)) \/ next t [] None).
Proof.
  intros Hw H. destruct w as [|x w]; [contradiction|]. apply (alive_sensible false d (map return_state st) [] x); [|reflexivity].
  apply (finish_alive d st [x] w). exact H.
Qed.

Lemma finished_range wild d S u i : finished_rule wild d S u i -> 1 <= i <= length (alternatives d).
Proof. intros (t & s & u1 & u2 & Et & _). apply alternative_range in Et. lia. Qed.

Lemma left_range wild d S u i : left_over wild d S u i -> 1 <= i <= length (alternatives d).
Proof. intros [[_ (s & S' & t & Et & _)]|H]; [apply alternative_range in Et; lia | exact (finished_range _ _ _ _ _ H)]. Qed.

Lemma left_sensible wild d S u v w i : w = u ++ v -> left_over wild d S u i ->
  exists t, alternative d i = Some t /\ (next t [] (Some (la w)) \/ next t [] None).
Proof.
  intros Ew [[Hu H]|H]; [|exact (finished_sensible _ _ _ _ _ _ _ Ew H)]. destruct u as [|x u]; [contradiction|]. apply (alive_sensible wild d S u x w i H). subst w. reflexivity.
Qed.

(** The replies of ALL-star meet what is assumed. *)
Lemma reply_ok d st w y : reply d st w y -> right d st w y /\ sensible d w y.
Proof.
  intros H. split.
  - apply C61_answers_are_right. destruct H as [u x v i E H | u x v o E H F | u x v i E H | u x v o E H F | u x i E H L | u x o E H F].
    + apply (a_first _ _ _ (u ++ [x]) v); [rewrite <- app_assoc; exact E | exact H].
    + apply (a_error1 _ _ _ (u ++ [x]) v); [rewrite <- app_assoc; exact E | exact H | intros i Hi; exact (left_range _ _ _ _ _ (F i Hi))].
    + apply a_full. apply (a_second _ _ _ (u ++ [x]) v); [rewrite <- app_assoc; exact E | exact H].
    + apply a_full. apply (a_error2 _ _ _ (u ++ [x]) v); [rewrite <- app_assoc; exact E | exact H | intros i Hi; exact (left_range _ _ _ _ _ (F i Hi))].
    + apply a_full. apply a_end; assumption.
    + apply a_full. apply a_error3; [exact H | intros i Hi; exact (left_range _ _ _ _ _ (F i Hi))].
  - intros i Ei. assert (Head : forall u x v, w = u ++ x :: v -> exists y u', u ++ [x] = y :: u' /\ la w = tt y).
    { intros [|y0 u] x v ->; [exists x, []; auto | exists y0, (u ++ [x]); auto]. }
    destruct H as [u x v j E H | u x v o E H F | u x v j E H | u x v o E H F | u x j E H L | u x o E H F].
    + injection Ei as <-. destruct (Head _ _ _ E) as (y1 & u' & E1 & E2). destruct H as [H _]. rewrite E1 in H. exact (alive_sensible _ _ _ _ _ _ _ H E2).
    + exact (left_sensible _ _ _ _ (x :: v) _ _ E (F i Ei)).
    + injection Ei as <-. destruct (Head _ _ _ E) as (y1 & u' & E1 & E2). destruct H as [H _]. rewrite E1 in H. exact (alive_sensible _ _ _ _ _ _ _ H E2).
    + exact (left_sensible _ _ _ _ (x :: v) _ _ E (F i Ei)).
    + injection Ei as <-. apply (path_sensible d st); [|exact H]. rewrite E. destruct u; discriminate.
    + exact (left_sensible _ _ _ _ [x] _ _ E (F i Ei)).
Qed.

Lemma revery_may P p : revery P p -> forall o, may_end p o -> P o.
Proof.
  intros H o M. revert H. induction M as [o | d st w k y o Hy M IH | n t k y o Hy M IH | n t k y o Hy M IH | n t k i o M IH]; cbn [revery]; intros H.
  - exact H.
  - destruct (reply_ok _ _ _ _ Hy) as [H1 H2]. apply IH. apply H; assumption.
  - apply IH. apply H. exact Hy.
  - apply IH. apply H. exact Hy.
  - apply IH. apply H.
Qed.

(** The replies exist. *)
Lemma some_reply d st w : w <> [] -> reply d st w (first_alt d st w).
Proof.
  intros Hw. destruct (exists_last Hw) as (u & x & E). unfold first_alt. pose proof (find_seq (try_alt d st w) (length (alternatives d)) 1) as F.
  destruct (find (try_alt d st w) (seq 1 (length (alternatives d)))) as [i|].
  - destruct F as (R & T & L). apply (y_end _ _ _ u x); [exact E | apply try_alt_spec; exact T|].
    intros j Hj C. pose proof (can_finish_range _ _ _ _ C). apply try_alt_spec in C. rewrite L in C; [discriminate | lia].
  - apply (y_end_error _ _ _ u x); [exact E | | intros i0 [=]]. intros k C. pose proof (can_finish_range _ _ _ _ C). apply try_alt_spec in C. rewrite F in C; [discriminate | lia].
Qed.

Lemma some_sync n t : exists y, fair_sync n t y.
Proof. exists SyncOk. split; [auto | intros [=]]. Qed.

Lemma asked_may P p : asked P p -> exists o, may_end p o.
Proof.
  induction p as [o|d st w k IH|n t k IH|n t k IH|n t k IH]; cbn [asked]; intros H.
  - exists o. constructor.
  - destruct H as [Hw H]. destruct (IH _ (H (first_alt d st w))) as [o Ho]. exists o. eapply me_ask; [apply some_reply; exact Hw | exact Ho].
  - destruct (some_sync n t) as [y Hy]. destruct (IH _ (H y)) as [o Ho]. exists o. eapply me_sync; eassumption.
  - destruct (IH _ (H InlineThrow)) as [o Ho]. exists o. apply (me_inline _ _ _ InlineThrow); [intros [=] | exact Ho].
  - destruct (IH _ (H 0)) as [o Ho]. exists o. apply (me_skip _ _ _ 0). exact Ho.
Qed.

Lemma stream_tail w : stream w -> tail_eof w.
Proof.
  intros (u & e & -> & He & _). induction u as [|x u IH]; [exact He|]. cbn [app tail_eof]. destruct (u ++ [e]) eqn:E; [destruct u; discriminate | exact IH].
Qed.

Definition rdepth (r : rule) (w : word) : nat := S (phi (fresh_mem w)) * BC + lks (code r) + depth r w.

Lemma rstart_ends n r w : rdepth r w <= n -> revery rends (rstart n r w).
Proof.
  intros Hn. unfold rstart. eapply revery_bind; [|intros o Ho; exact (catch_ends r _ o Ho)].
  destruct (code_grds r) as (G1 & _ & G3). apply (rrun_ends n _ _ _ _ _ _ _ (code_chk r) G1 G3). left. unfold rdepth in Hn. lia.
Qed.

(** How a run with recovery ends. *)
Definition rverdict (r : rule) (w : word) (o : routcome) : Prop :=
  exists f c m, o = RDone f c m /\
    (failed m = true /\ ~ lang (Nt r) w \/ failed m = false /\ exists t, f = [t] /\ ws m = [] /\ selected r w t).

Lemma rstart_verdict n r w : start_rule r -> stream w -> rdepth r w <= n -> revery (rverdict r w) (rstart n r w).
Proof.
  intros Hr Hw Hn. pose proof (rstart_ends n r w Hn) as E.
  pose proof (C48_all_replies r w n Hr Hw ltac:(unfold rdepth in Hn; lia)) as V. unfold start in V.
  apply every_unbind in V. pose proof (rrun_like n (code r) (enter_state r) [] (fresh_mem w) _ (conj eq_refl (conj eq_refl eq_refl)) V) as L.
  assert (L2 : revery (fun o => o = RFuel \/ rverdict r w o) (rstart n r w)).
  { unfold rstart. eapply revery_bind; [exact L|]. intros o Ho. destruct o as [f c m|c m|]; cbn [like every verdict] in Ho; cbn [catch revery].
    - right. destruct Ho as [[H1 H2]|[(H1 & H2 & H3) (t & Et & E2 & S0)]].
      + exists [Node r f], (enter_state r), m. split; [reflexivity|]. left. auto.
      + exists [Node r f], (enter_state r), m. split; [reflexivity|]. right. split; [exact H3|]. exists t. auto.
    - intros i. right. destruct Ho as [H1 H2]. eexists _, _, _. split; [reflexivity|]. left. split; [|exact H2]. rewrite failed_recover.
      destruct H1 as [H1|H1]; [apply failed_report; exact H1 | exact (failed_clean _ _ H1)].
    - left. reflexivity. }
  eapply revery_mono; [|exact (revery_and _ _ _ E L2)]. intros o [H1 [H2|H2]]; [contradiction | exact H2].
Qed.

(** Every run of the rule function of a start rule on a token stream, whatever the runtime predicts and
    however its error handler deletes, makes up and skips tokens, ends; no panic comes out of it; the error
    listener was called if and only if the stream is not a sentence, and if not, the tree is the one the
    specification selects. *)
Theorem C65_every_run_ends r w : start_rule r -> stream w -> exists n0, forall n, n0 <= n ->
  (exists o, may_end (rstart n r w) o) /\
  forall o, may_end (rstart n r w) o -> exists f c m, o = RDone f c m /\
    (failed m = true <-> ~ lang (Nt r) w) /\
    (failed m = false -> exists t, f = [t] /\ ws m = [] /\ selected r w t).
Proof.
  intros Hr Hw. exists (rdepth r w). intros n Hn. split.
  - apply asked_may with (P := fun _ => True). unfold rstart. apply asked_bind with (Q := fun _ => True).
    + eapply asked_mono; [|apply (rrun_asked n (starting r)); [apply code_ef | exact (stream_tail w Hw)]]. auto.
    + intros [f c m|c m|] _; cbn [catch asked]; auto.
  - intros o Ho. destruct (revery_may _ _ (rstart_verdict n r w Hr Hw Hn) o Ho) as (f & c & m & -> & [[H1 H2]|(H1 & t & E & Ew & S0)]).
    + exists f, c, m. split; [reflexivity|]. split; [tauto|]. congruence.
    + exists f, c, m. split; [reflexivity|]. split; [|intros _; exists t; auto]. split; [congruence|]. intros K. exfalso. apply K. eapply selected_lang. exact S0.
Qed.

(** What the exported functions return, with recovery and for all replies, is what the model returns. *)
Theorem C65_exported_functions_with_recovery e input w : input <> [] -> scans (bad_rune e) (decode input) w ->
  exists n0, forall n, n0 <= n ->
    (forall o, may_end (rstart n R_addressList w) o -> returned_list e o = Some (ParseAddressList e input)) /\
    (forall o, may_end (rstart n R_dateTime w) o -> returned_time e o = Some (ParseDateTime e input)).
Proof.
  intros Hi Hw. apply scans_iff in Hw. subst w. change (lex (bad_rune e) (decode input)) with (tokens e input).
  pose proof (lex_stream (bad_rune e) (decode input)) as St. change (lex (bad_rune e) (decode input)) with (tokens e input) in St.
  exists (max (rdepth R_addressList (tokens e input)) (rdepth R_dateTime (tokens e input))). intros n Hn.
  rewrite (list_cases e input Hi), (time_cases e input Hi). clear Hi.
  assert (Case : forall r, start_rule r -> rdepth r (tokens e input) <= n -> forall o, may_end (rstart n r (tokens e input)) o ->
    exists f c m, o = RDone f c m /\ match parse r (tokens e input) with None => failed m = true | Some t => failed m = false /\ f = [t] end).
  { intros r Hr Hd o Ho. destruct (revery_may _ _ (rstart_verdict n r _ Hr St Hd) o Ho) as (f & c & m & -> & [[H1 H2]|(H1 & t & E & Ew & S0)]).
    - exists f, c, m. split; [reflexivity|]. apply parse_none in H2. rewrite H2. exact H1.
    - exists f, c, m. split; [reflexivity|]. apply parse_selected in S0. rewrite S0. auto. }
  split; intros o Ho.
  - destruct (Case R_addressList (or_introl eq_refl) ltac:(lia) o Ho) as (f & c & m & -> & H). unfold returned_list, returned.
    destruct (parse R_addressList (tokens e input)) as [t|].
    + destruct H as [-> ->]. destruct (walk (wenv_of e) t init_w) as [s|]; [|reflexivity]. destruct (Walker.res s); reflexivity.
    + rewrite H. reflexivity.
  - destruct (Case R_dateTime (or_intror eq_refl) ltac:(lia) o Ho) as (f & c & m & -> & H). unfold returned_time, returned.
    destruct (parse R_dateTime (tokens e input)) as [t|].
    + destruct H as [-> ->]. destruct (walk (wenv_of e) t init_w) as [s|]; [|reflexivity]. destruct (Walker.res s); reflexivity.
    + rewrite H. reflexivity.
Qed.

(** ** The hypotheses can be met, and runs with recovery can be computed *)

(** Predictions that read one token ahead where this is enough, as some text from [vs] shows. *)
Definition settled (d : N) (x : tok) (i : nat) : bool :=
  forallb (fun k => Nat.eqb k i || match alternative d k with Some t => negb (starts_with t (tt x)) | None => true end) (seq 1 (length (alternatives d))).
Definition ahead (vs : list word) (d : N) (w : word) : option nat :=
  match w with
  | [] => None
  | x :: _ => find (fun i => settled d x i && existsb (fun v => try_alt d [] (x :: v) i) vs) (seq 1 (length (alternatives d)))
  end.
Definition some_prediction (vs : list word) (d : N) (st : list N) (w : word) : option nat :=
  match ahead vs d w with Some i => Some i | None => first_alt d st w end.

Lemma some_prediction_reply vs d st w : w <> [] -> reply d st w (some_prediction vs d st w).
Proof.
  intros Hw. unfold some_prediction. destruct (ahead vs d w) as [i|] eqn:E; [|apply some_reply; exact Hw].
  destruct w as [|x w]; [contradiction|]. cbn [ahead] in E. apply find_some in E as [_ E]. apply andb_true_iff in E as [E1 E2].
  apply existsb_exists in E2 as (v & _ & E2). apply (y_first _ _ _ [] x w); [reflexivity|]. apply (only_one_from d x [] v); [exact E2 | exact E1].
Qed.

(** An error handler that deletes a token where it may, and otherwise gives up the rule and skips [k] tokens. *)
Fixpoint rexec (vs : list word) (k : nat) (p : rprog) : routcome :=
  match p with
  | REnd o => o
  | RAsk d st w kk => rexec vs k (kk (some_prediction vs d st w))
  | RSync n t kk => rexec vs k (kk (if sync_test n t then if N.eqb t T_EOF then SyncThrow else SyncDelete else SyncOk))
  | RInline n t kk => rexec vs k (kk (if N.eqb t T_EOF then InlineThrow else InlineDelete))
  | RSkip n t kk => rexec vs k (kk k)
  end.

Lemma rexec_may vs k P p : asked P p -> may_end p (rexec vs k p).
Proof.
  induction p as [o|d st w kk IH|n t kk IH|n t kk IH|n t kk IH]; cbn [asked rexec]; intros H.
  - constructor.
  - destruct H as [Hw H]. eapply me_ask; [apply some_prediction_reply; exact Hw | apply IH; apply H].
  - eapply me_sync; [|apply IH; apply H]. pose proof (proj2 some_runtime_ok n t) as F. change (sync_fails some_runtime n t) with (sync_test n t) in F.
    split.
    + intros Hn. specialize (F Hn). rewrite F. reflexivity.
    + destruct (sync_test n t); [|intros [=]]. destruct (N.eqb_spec t T_EOF); [intros [=] | auto].
  - eapply me_inline; [|apply IH; apply H]. unfold fair_inline. destruct (N.eqb_spec t T_EOF); [intros [=] | auto].
  - eapply me_skip. apply IH. apply H.
Qed.

Lemma start_asked n r w : stream w -> asked (fun _ => True) (rstart n r w).
Proof.
  intros Hw. unfold rstart. apply asked_bind with (Q := fun _ => True).
  - eapply asked_mono; [|apply (rrun_asked n (starting r)); [apply code_ef | exact (stream_tail w Hw)]]. auto.
  - intros [f c m|c m|] _; cbn [catch asked]; auto.
Qed.

Definition summary (o : routcome) : option (bool * nat) := match o with RDone _ _ m => Some (failed m, length (ws m)) | _ => None end.
Definition sufs (l : word) : list word := map (fun k => skipn k l) (seq 0 (length l)).
Definition hints (s : String.string) : list word := flat_map (fun l => map (fun k => firstn k l) (seq 0 (S (length l)))) (sufs (lex SkipBad (decode (bs s)))).

(** "@1Jan20 10:10": the '@' is deleted and all the rest is read; the error is kept. *)
Example C65_deleted : let w := tokens env1 (bs "@1Jan20 10:10") in exists o, may_end (rstart 1000 R_dateTime w) o /\
  summary o = Some (true, 0) /\ returned_time env1 o = Some (Ret zero_time (Some ESyntax)).
Proof.
  cbn zeta. exists (rexec [] 0 (rstart 1000 R_dateTime (tokens env1 (bs "@1Jan20 10:10")))). split.
  - apply (rexec_may [] 0 (fun _ => True)). apply start_asked. apply lex_stream.
  - split; vm_compute; reflexivity.
Qed.

(** "1Jan20 10::10": several rules are read, and several are given up. *)
Example C65_given_up : let w := tokens env1 (bs "1Jan20 10::10") in exists o, may_end (rstart 1000 R_dateTime w) o /\
  summary o = Some (true, 9) /\ returned_time env1 o = Some (Ret zero_time (Some ESyntax)).
Proof.
  cbn zeta. exists (rexec (hints "1Jan20 10:10") 0 (rstart 1000 R_dateTime (tokens env1 (bs "1Jan20 10::10")))). split.
  - apply (rexec_may (hints "1Jan20 10:10") 0 (fun _ => True)). apply start_asked. apply lex_stream.
  - split; vm_compute; reflexivity.
Qed.

Example C65_no_error : let w := tokens env1 (bs "a@b") in exists o, may_end (rstart 1000 R_addressList w) o /\
  summary o = Some (false, 0) /\ returned_list env1 o = Some (Ret (Some [mkAddr [] (bs "a@b")]) None).
Proof.
  cbn zeta. exists (rexec [] 0 (rstart 1000 R_addressList (tokens env1 (bs "a@b")))). split.
  - apply (rexec_may [] 0 (fun _ => True)). apply start_asked. apply lex_stream.
  - split; vm_compute; reflexivity.
Qed.
