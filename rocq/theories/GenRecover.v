(** The generated rule functions with what happens after a syntax error: the deferred recover blocks
    (parser/rfc5322_parser.go:882-892 and in every other rule function) and the error handler of the ANTLR
    runtime (DefaultErrorStrategy), which reports the error, skips or makes up tokens and lets the parser
    go on.  GenRun.v stops at the first error; here the run goes on to its end.

    The decisions of the error handler (delete a token, make one up, give up; how many tokens to skip) are
    replies of the runtime, and everything is proved for all of them.  Simplifications:
    - error nodes are left out of the tree, which is not used after an error (parser.go:34, :57);
    - p.Match(EOF) removes the end-of-file token, in Go it stays in the stream; only AddressList and DateTime
      match it, as their last step. *)
From Coq Require Import List NArith ZArith Bool Arith Lia FMapPositive.
From Verif Require Import Lexer Grammar Parser Spec ParserFacts Static Cfws First GenSyntax GenAtn GenCode GenRun GenShape GenNet GenCheck GenFacts GenWit.
Import ListNotations.

(** ** The state of the parser and of its error handler *)
(* /repo: ANTLR runtime, DefaultErrorStrategy; walker.go:24 (err) *)
Record mem : Type := mkMem {
  ws : word;                 (* tokens not consumed yet *)
  mode : bool;               (* errorRecoveryMode *)
  failed : bool;             (* walker.err is set: SyntaxError was called *)
  lix : option nat;          (* lastErrorIndex, as the number of tokens then left; None: -1 *)
  lst : list N }.            (* lastErrorStates *)

(* /repo: parser.go:25-31 *)
Definition fresh_mem (w : word) : mem := mkMem w false false None [].

(** beginErrorCondition and NotifyErrorListeners, unless the handler is recovering already; the listener
    sets walker.err (walker.go:48). *)
(* /repo: walker.go:48; ANTLR runtime, DefaultErrorStrategy.ReportError, ReportUnwantedToken, ReportMissingToken *)
Definition report (m : mem) : mem := if mode m then m else mkMem (ws m) true true (lix m) (lst m).

(** endErrorCondition *)
(* /repo: ANTLR runtime, DefaultErrorStrategy.ReportMatch *)
Definition matched (m : mem) : mem := mkMem (ws m) false (failed m) None [].

(** The end-of-file token is never consumed. *)
(* /repo: ANTLR runtime, BaseParser.Consume *)
Definition consume (w : word) : word := match w with x :: w' => if N.eqb (tt x) T_EOF then w else w' | [] => [] end.
(* /repo: ANTLR runtime, BaseParser.Consume *)
Definition put (m : mem) (w : word) : mem := mkMem w (mode m) (failed m) (lix m) (lst m).
(* /repo: ANTLR runtime, BaseParser.Consume *)
Definition eat (m : mem) : mem := put m (consume (ws m)).
(* /repo: ANTLR runtime, DefaultErrorStrategy.consumeUntil *)
Fixpoint skip (k : nat) (m : mem) : mem := match k with O => m | S k' => skip k' (eat m) end.

(* /repo: ANTLR runtime, IntervalSet.contains *)
Definition seen (n : N) (l : list N) : bool := existsb (N.eqb n) l.

(** Recover in state [c]: one token is consumed if this happened before at the same place; then tokens are
    skipped up to one with which the parser may go on ([k] of them). *)
(* /repo: ANTLR runtime, DefaultErrorStrategy.Recover *)
Definition recover (c : N) (k : nat) (m : mem) : mem :=
  let again := match lix m with Some i => Nat.eqb i (length (ws m)) && seen c (lst m) | None => false end in
  let m1 := if again then eat m else m in
  skip k (mkMem (ws m1) (mode m1) (failed m1) (Some (length (ws m1))) (c :: lst m1)).

(** ** What the runtime is asked *)
(* /repo: ANTLR runtime, DefaultErrorStrategy.Sync *)
Inductive sync_reply : Type :=
| SyncOk
| SyncDelete               (* SingleTokenDeletion *)
| SyncSkip (k : nat)       (* ReportUnwantedToken and consumeUntil *)
| SyncThrow.               (* InputMismatch *)
(* /repo: ANTLR runtime, DefaultErrorStrategy.RecoverInline *)
Inductive inline_reply : Type :=
| InlineDelete             (* SingleTokenDeletion *)
| InlineInsert             (* SingleTokenInsertion *)
| InlineThrow.             (* InputMismatch *)

(* /repo: parser/rfc5322_parser.go:872-918: how a rule function ends *)
Inductive routcome : Type :=
| RDone (f : list tree) (cur : N) (m : mem)
| RRaise (cur : N) (m : mem)                 (* a panic with a RecognitionException, before the deferred block *)
| RFuel.

(* /repo: parser/rfc5322_parser.go:872-14929 *)
Inductive rprog : Type :=
| REnd (o : routcome)
| RAsk (d : N) (st : list N) (w : word) (k : option nat -> rprog)      (* AdaptivePredict *)
| RSync (n : N) (t : ttype) (k : sync_reply -> rprog)                  (* Sync *)
| RInline (n : N) (t : ttype) (k : inline_reply -> rprog)              (* RecoverInline *)
| RSkip (n : N) (t : ttype) (k : nat -> rprog).                        (* consumeUntil, in Recover *)

(* /repo: sequencing of statements in parser/rfc5322_parser.go *)
Fixpoint rbind (p : rprog) (f : routcome -> rprog) : rprog :=
  match p with
  | REnd o => f o
  | RAsk d st w k => RAsk d st w (fun o => rbind (k o) f)
  | RSync n t k => RSync n t (fun o => rbind (k o) f)
  | RInline n t k => RInline n t (fun o => rbind (k o) f)
  | RSkip n t k => RSkip n t (fun o => rbind (k o) f)
  end.

(* /repo: sequencing of statements in parser/rfc5322_parser.go *)
Definition rprepend (f : list tree) (o : routcome) : routcome := match o with RDone f' c m => RDone (f ++ f') c m | o' => o' end.
(* /repo: sequencing of statements in parser/rfc5322_parser.go *)
Definition rthen (p : rprog) (k : N -> mem -> rprog) : rprog :=
  rbind p (fun o => match o with RDone f cur m => rbind (k cur m) (fun o' => REnd (rprepend f o')) | o' => REnd o' end).

(** The deferred blocks of the rule function of [r]: a RecognitionException is reported and recovered from. *)
(* /repo: parser/rfc5322_parser.go:878-892 *)
Definition catch (r : rule) (cur : N) (o : routcome) : rprog :=
  match o with
  | RDone f _ m => REnd (RDone [Node r f] cur m)
  | RRaise c m => RSkip c (la (ws m)) (fun k => REnd (RDone [Node r []] cur (recover c k (report m))))
  | RFuel => REnd RFuel
  end.

(** p.Match(t) and the tests of a set when the next token does not fit: RecoverInline. *)
(* /repo: ANTLR runtime, BaseParser.Match, DefaultErrorStrategy.RecoverInline; parser/rfc5322_parser.go:3009 *)
Definition inline (cur : N) (m : mem) (go : mem -> rprog) : rprog :=
  RInline cur (la (ws m)) (fun r => match r with
    | InlineDelete => go (eat (matched (eat (report m))))
    | InlineInsert => go (report m)
    | InlineThrow => REnd (RRaise cur m)
    end).

(** As GenRun.run, with recovery. *)
(* /repo: parser/rfc5322_parser.go:872-14929 *)
Fixpoint rrun (n : nat) (cs : list stmt) (cur : N) (st : list N) (m : mem) : rprog :=
  match n with
  | O => REnd RFuel
  | S n' =>
      let go := rrun n' in
      match cs with
      | [] => REnd (RDone [] cur m)
      | s :: cs' =>
          match s with
          | SState q => go cs' q st m
          | SSync =>
              if mode m then go cs' cur st m else
              RSync cur (la (ws m)) (fun r => match r with
                | SyncOk => go cs' cur st m
                | SyncDelete => go cs' cur st (matched (eat (report m)))
                | SyncSkip k => go cs' cur st (skip k (report m))
                | SyncThrow => REnd (RRaise cur m)
                end)
          | SMatch t =>
              match ws m with
              | x :: w' => if N.eqb (tt x) t then rthen (REnd (RDone [Leaf x] cur (matched (put m w')))) (fun c v => go cs' c st v)
                           else inline cur m (fun m' => go cs' cur st m')
              | [] => inline cur m (fun m' => go cs' cur st m')
              end
          | SMatchSet c =>
              match ws m with
              | x :: w' => if eval c (tt x) then rthen (REnd (RDone [Leaf x] cur (matched (put m w')))) (fun c v => go cs' c st v)
                           else inline cur m (fun m' => go cs' cur st m')
              | [] => inline cur m (fun m' => go cs' cur st m')
              end
          | SCall r =>
              rthen (rbind (go (code r) (enter_state r) (cur :: st) m) (catch r cur)) (fun c v => go cs' c st v)
          | SIfLa c b =>
              if eval c (la (ws m)) then rthen (go b cur st m) (fun c1 v => go cs' c1 st v) else go cs' cur st m
          | SWhileLa c b =>
              if eval c (la (ws m)) then rthen (go b cur st m) (fun c1 v => go (s :: cs') c1 st v) else go cs' cur st m
          | SDoLa c b =>
              rthen (go b cur st m) (fun c1 v => if eval c (la (ws v)) then go (s :: cs') c1 st v else go cs' c1 st v)
          | SSwitchLa bs =>
              match pick_case (la (ws m)) bs with
              | Some b => rthen (go b cur st m) (fun c1 v => go cs' c1 st v)
              | None => REnd (RRaise cur m)
              end
          | SPredict d bs =>
              RAsk d st (ws m) (fun o =>
                match o with
                | Some (S j) =>
                    match nth_error bs j with
                    | Some b => rthen (go b cur st m) (fun c1 v => go cs' c1 st v)
                    | None => go cs' cur st m
                    end
                | Some O => go cs' cur st m
                | None => REnd (RRaise cur m)
                end)
          | SWhilePredict d b t =>
              RAsk d st (ws m) (fun o =>
                match o with
                | Some 1 => rthen (go b cur st m) (fun c1 v => rthen (go t c1 st v) (fun c2 u => go (s :: cs') c2 st u))
                | Some 0 | Some 2 => go cs' cur st m
                | Some _ => rthen (go t cur st m) (fun c2 u => go (s :: cs') c2 st u)
                | None => REnd (RRaise cur m)
                end)
          | SDoPredict d b t =>
              rthen (go b cur st m) (fun c1 v => rthen (go t c1 st v) (fun c2 u =>
                RAsk d st (ws u) (fun o =>
                  match o with
                  | Some 1 => go (s :: cs') c2 st u
                  | Some 0 | Some 2 => go cs' c2 st u
                  | Some _ => REnd (RRaise c2 u)
                  | None => REnd (RRaise c2 u)
                  end)))
          end
      end
  end.

(** p.AddressList() and p.DateTime() with their deferred blocks. *)
(* /repo: parser.go:32, parser.go:55 *)
Definition rstart (n : nat) (r : rule) (w : word) : rprog :=
  rbind (rrun n (code r) (enter_state r) [] (fresh_mem w)) (catch r (enter_state r)).

(** ** What is assumed of the replies *)

(** A predicted alternative can begin with the next token, or can get to the end of the rule without a
    token.  (ALL-star: if no alternative can read on, one that got to the end of the rule is chosen, or an
    error is raised; see PropRecover.v.) *)
(* /repo: assumption on the ANTLR runtime *)
Definition sensible (d : N) (w : word) (o : option nat) : Prop :=
  forall i, o = Some i -> exists t, alternative d i = Some t /\ (next t [] (Some (la w)) \/ next t [] None).

(** Sync does nothing if the rule can go on with the next token or can end here. The end-of-file token is
    not deleted. *)
(* /repo: assumption on the ANTLR runtime *)
Definition fair_sync (n : N) (t : ttype) (r : sync_reply) : Prop :=
  (next n [] None \/ next n [] (Some t) -> r = SyncOk) /\ (r = SyncDelete -> t <> T_EOF).
(* /repo: assumption on the ANTLR runtime *)
Definition fair_inline (t : ttype) (r : inline_reply) : Prop := r = InlineDelete -> t <> T_EOF.

(** [revery P p]: [p] ends with an outcome that has [P], whatever allowed replies it gets. *)
(* /repo: specification *)
Fixpoint revery (P : routcome -> Prop) (p : rprog) : Prop :=
  match p with
  | REnd o => P o
  | RAsk d st w k => forall o, right d st w o -> sensible d w o -> revery P (k o)
  | RSync n t k => forall r, fair_sync n t r -> revery P (k r)
  | RInline n t k => forall r, fair_inline t r -> revery P (k r)
  | RSkip n t k => forall i, revery P (k i)
  end.

(** ** Reasoning about all replies *)
Lemma revery_mono (P Q : routcome -> Prop) : (forall o, P o -> Q o) -> forall p, revery P p -> revery Q p.
Proof.
  intros H. induction p as [o|d st w k IH|n t k IH|n t k IH|n t k IH]; cbn [revery]; intros E; auto.
Qed.

Lemma revery_and (P Q : routcome -> Prop) p : revery P p -> revery Q p -> revery (fun o => P o /\ Q o) p.
Proof. induction p as [o|d st w k IH|n t k IH|n t k IH|n t k IH]; cbn [revery]; intros E F; auto. Qed.

Lemma revery_bind (P Q : routcome -> Prop) f : forall p, revery Q p -> (forall o, Q o -> revery P (f o)) -> revery P (rbind p f).
Proof. intros p H Hf. induction p as [o|d st w k IH|n t k IH|n t k IH|n t k IH]; cbn [revery rbind] in *; auto. Qed.

Lemma revery_then (P Q : routcome -> Prop) p k : revery Q p ->
  (forall f c m, Q (RDone f c m) -> revery (fun o => P (rprepend f o)) (k c m)) ->
  (forall c m, Q (RRaise c m) -> P (RRaise c m)) -> (Q RFuel -> P RFuel) -> revery P (rthen p k).
Proof.
  intros H H1 H2 H3. unfold rthen. eapply revery_bind; [exact H|]. intros [f c m|c m|] Ho; [|apply H2; exact Ho | apply H3; exact Ho].
  eapply revery_bind; [exact (H1 f c m Ho)|]. intros o Hp. exact Hp.
Qed.

Lemma rprepend_nil o : rprepend [] o = o.
Proof. destruct o; reflexivity. Qed.

(** An outcome that does not depend on the trees. *)
Definition treeless (P : routcome -> Prop) : Prop := forall f g c m, P (RDone f c m) -> P (RDone g c m).

Lemma treeless_prepend P f o : treeless P -> P o -> P (rprepend f o).
Proof. intros T. destruct o; cbn [rprepend]; [apply T | auto | auto]. Qed.

Lemma then_treeless (P Q : routcome -> Prop) p k : treeless P -> revery Q p ->
  (forall f c m, Q (RDone f c m) -> revery P (k c m)) ->
  (forall c m, Q (RRaise c m) -> P (RRaise c m)) -> (Q RFuel -> P RFuel) -> revery P (rthen p k).
Proof.
  intros T H H1 H2 H3. eapply revery_then; [exact H | | exact H2 | exact H3]. intros f c m Ho.
  eapply revery_mono; [|exact (H1 f c m Ho)]. intros o. apply treeless_prepend. exact T.
Qed.
