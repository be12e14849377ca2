(** How the generated rule functions run (parser/rfc5322_parser.go), on top of the ANTLR runtime.

    The runtime is not in the repository.  What the generated functions use of it is modelled as follows.
    - p.Match, p.Consume, the parse tree: [run] below; a consumed token becomes a leaf, a finished rule
      function a node.  The end-of-file token is removed when it is matched; in Go it stays in the
      stream, but only AddressList and DateTime match it, as their last step.
    - p.GetInterpreter().AdaptivePredict (ALL-star prediction on the network) and
      p.GetErrorHandler().Sync (a test of the next token against the network) are requests to the runtime
      ([Ask], [Test]); [right] and [fair] say what is assumed of the replies, in terms of the network that
      the generated file deserializes.
    - An error that is reported to the error listener ends the run with [Failed]: what the recovery does
      then is never seen, as parser.go:34 and parser.go:57 return the error. *)
From Coq Require Import List NArith ZArith Bool Arith.
From Verif Require Import Lexer Grammar Parser GenSyntax GenAtn GenCode.
Import ListNotations.

(** ** The network *)

(** Token types as Go numbers them: antlr.TokenEOF is -1. *)
(* /repo: parser/rfc5322_parser.go:638 *)
Definition go_type (t : ttype) : Z := if N.eqb t T_EOF then (-1)%Z else Z.of_N t.

(* /repo: ANTLR runtime *)
Definition in_ranges (z : Z) (rs : list (Z * Z)) : bool := existsb (fun r => (fst r <=? z)%Z && (z <=? snd r)%Z) rs.

(** The transitions of a state, and whether it is the stop state of a rule (type 7). *)
(* /repo: parser/rfc5322_parser.go:603 *)
Definition edges (s : N) : list edge := match get (a_edges parser_atn) s with Some l => l | None => [] end.
(* /repo: parser/rfc5322_parser.go:603 *)
Definition is_stop (s : N) : bool := match get (a_types parser_atn) s with Some t => N.eqb t 7 | None => false end.

(** The rule to which a state belongs. *)
(* /repo: parser/rfc5322_parser.go:603 *)
Definition rule_of (s : N) : N := match get (a_rules parser_atn) s with Some r => r | None => 65535%N end.

(** [path s S w]: the network can go from state [s] to the end of the start rule, reading exactly the
    tokens [w]; [S] holds the states to return to. *)
(* /repo: specification of prediction, parser/rfc5322_parser.go:1039 *)
Inductive path : N -> list N -> word -> Prop :=
| p_done : forall s, is_stop s = true -> path s [] []
| p_ret : forall s f S w, is_stop s = true -> path f S w -> path s (f :: S) w
| p_eps : forall s t S w, In (EEps t) (edges s) -> path t S w -> path s S w
| p_tok : forall s rs t S x w,
    In (ETok rs t) (edges s) -> in_ranges (go_type (tt x)) rs = true -> path t S w -> path s S (x :: w)
| p_rule : forall s b ix f S w, In (ERule b ix f) (edges s) -> path b (f :: S) w -> path s S w.

(** [next s S o]: from state [s], without leaving the rule to which [s] belongs, the network can read a
    token of type [t] next ([o = Some t]) or reach the end of that rule ([o = None]): ATN.NextTokens. *)
(* /repo: specification of Sync, parser/rfc5322_parser.go:896 *)
Inductive next : N -> list N -> option ttype -> Prop :=
| n_done : forall s, is_stop s = true -> next s [] None
| n_ret : forall s f S o, is_stop s = true -> next f S o -> next s (f :: S) o
| n_eps : forall s t S o, In (EEps t) (edges s) -> next t S o -> next s S o
| n_tok : forall s rs t S x,
    In (ETok rs t) (edges s) -> in_ranges (go_type x) rs = true -> next s S (Some x)
| n_rule : forall s b ix f S o, In (ERule b ix f) (edges s) -> next b (f :: S) o -> next s S o.

(** LA(1): the type of the next token; at the end of the stream it stays TokenEOF. *)
(* /repo: parser/rfc5322_parser.go:898 *)
Definition la (w : word) : ttype := match w with [] => T_EOF | x :: _ => tt x end.

(** The state of decision [d], and the state in which alternative [i] (from 1) of it begins. *)
(* /repo: parser/rfc5322_parser.go:607 *)
Definition decision_state (d : N) : N := nth (N.to_nat d) (a_decisions parser_atn) 0%N.
(* /repo: parser/rfc5322_parser.go:1039 *)
Definition alternatives (d : N) : list edge := edges (decision_state d).
(* /repo: parser/rfc5322_parser.go:1039 *)
Definition alternative (d : N) (i : nat) : option N :=
  match i with
  | O => None
  | S j => match nth_error (alternatives d) j with Some (EEps t) => Some t | _ => None end
  end.

(** The state to return to after a rule that was invoked from state [n]: the follow state of the rule
    transition (the runtime looks at the first transition of the invoking state). *)
(* /repo: parser/rfc5322_parser.go:877 *)
Definition return_state (n : N) : N := match edges n with ERule _ _ f :: _ => f | _ => 0%N end.

(** Alternative [i] of decision [d] can lead to the end of the input, when the pending rule functions were
    invoked from the states [st] (innermost first). *)
(* /repo: parser/rfc5322_parser.go:1039 *)
Definition can_finish (d : N) (st : list N) (w : word) (i : nat) : Prop :=
  exists t, alternative d i = Some t /\ path t (map return_state st) w.

(** [linked q st]: rule number [q] was invoked from the first state of [st], the rule of that state from the
    second, and so on. *)
(* /repo: parser/rfc5322_parser.go:877 (EnterRule; the invoking states of the pending contexts) *)
Fixpoint linked (q : N) (st : list N) : Prop :=
  match st with
  | [] => True
  | n :: st' => match edges n with ERule _ ix _ :: _ => ix = q | _ => False end /\ linked (rule_of n) st'
  end.

(** ** The runtime *)
(* /repo: parser/rfc5322_parser.go:627 (interpreter), :896 (error handler) *)
Record runtime : Type := mkRuntime {
  predict : N -> list N -> word -> option nat;    (* AdaptivePredict; None: a NoViableAlt panic *)
  sync_fails : N -> ttype -> bool }.              (* Sync in a state, before a token type: reports an error *)

(** What is assumed of a prediction.
    - It names one of the alternatives of the decision.
    - If some alternative can lead to the end of the input, the least such alternative is predicted; this
      is only assumed for pending rule functions that can have been invoked in that way. *)
(* /repo: assumption on the ANTLR runtime *)
Definition right (d : N) (st : list N) (w : word) (o : option nat) : Prop :=
  (forall i, o = Some i -> 1 <= i <= length (alternatives d)) /\
  (forall i, linked (rule_of (decision_state d)) st -> can_finish d st w i -> (forall j, j < i -> ~ can_finish d st w j) -> o = Some i).

(** What is assumed of Sync: it reports no error if the rule can go on with the next token or can end here. *)
(* /repo: assumption on the ANTLR runtime *)
Definition fair (n : N) (t : ttype) (b : bool) : Prop := next n [] None \/ next n [] (Some t) -> b = false.

(* /repo: assumption on the ANTLR runtime *)
Definition runtime_ok (rt : runtime) : Prop :=
  (forall d st w, right d st w (predict rt d st w)) /\ (forall n t, fair n t (sync_fails rt n t)).

(** ** Conditions on _la *)
(* /repo: parser/rfc5322_parser.go:3002 *)
Definition mask (off : N) (ts : list ttype) : Z :=
  fold_right (fun t m => Z.lor (Z.shiftl 1 (Z.of_N t - Z.of_N off)) m) 0%Z ts.

(* /repo: parser/rfc5322_parser.go:3002 *)
Definition eval1 (c : cond1) (t : ttype) : bool :=
  match c with
  | CEq u => Z.eqb (go_type t) (go_type u)
  | CBits off ts =>
      let x := (go_type t - Z.of_N off)%Z in
      Z.eqb (Z.land x (-32)) 0 && negb (Z.eqb (Z.land (Z.shiftl 1 x) (mask off ts)) 0)
  end.

(* /repo: parser/rfc5322_parser.go:3002 *)
Definition eval (c : cond) (t : ttype) : bool := existsb (fun x => eval1 x t) c.

(** ** Running statements *)
(* /repo: parser/rfc5322_parser.go:872-918: how a rule function ends *)
Inductive outcome : Type :=
| Done (f : list tree) (cur : N) (w : word)   (* nodes built, state, remaining tokens *)
| Failed                                      (* an error was reported *)
| OutOfFuel.

(** What a rule function does: it asks the runtime for predictions and for tests of the next token, and ends.
    The runtime is only used in this way, so that everything proved for all replies of the runtime holds for
    any runtime, with memory or without, used by one caller or by several. *)
(* /repo: parser/rfc5322_parser.go:872-14929 *)
Inductive prog : Type :=
| End (o : outcome)
| Ask (d : N) (st : list N) (w : word) (k : option nat -> prog)   (* AdaptivePredict *)
| Test (n : N) (t : ttype) (k : bool -> prog).                    (* Sync *)

(* /repo: sequencing of statements in parser/rfc5322_parser.go *)
Fixpoint bind (p : prog) (f : outcome -> prog) : prog :=
  match p with
  | End o => f o
  | Ask d st w k => Ask d st w (fun o => bind (k o) f)
  | Test n t k => Test n t (fun b => bind (k b) f)
  end.

(** Go on after a part that built the trees [f]. *)
(* /repo: sequencing of statements in parser/rfc5322_parser.go *)
Definition prepend (f : list tree) (o : outcome) : outcome := match o with Done f' c w => Done (f ++ f') c w | o' => o' end.
(* /repo: sequencing of statements in parser/rfc5322_parser.go *)
Definition and_then (p : prog) (k : N -> word -> prog) : prog :=
  bind p (fun o => match o with Done f cur w => bind (k cur w) (fun o' => End (prepend f o')) | o' => End o' end).

(* /repo: parser/rfc5322_parser.go:898 *)
Fixpoint pick_case (t : ttype) (cs : list (list ttype * list stmt)) : option (list stmt) :=
  match cs with
  | [] => None
  | (ts, b) :: cs' => if memb t ts then Some b else pick_case t cs'
  end.

(** [run n cs cur st w]: run the statements [cs] of a rule function in parser state [cur] (GetState), when
    the pending rule functions were invoked from the states [st]; [n] bounds the depth. *)
(* /repo: parser/rfc5322_parser.go:872-14929 *)
Fixpoint run (n : nat) (cs : list stmt) (cur : N) (st : list N) (w : word) : prog :=
  match n with
  | O => End OutOfFuel
  | S n' =>
      let go := run n' in
      match cs with
      | [] => End (Done [] cur w)
      | s :: cs' =>
          match s with
          | SState m => go cs' m st w
          | SSync => Test cur (la w) (fun b => if b then End Failed else go cs' cur st w)
          | SMatch t =>
              match w with
              | x :: w' => if N.eqb (tt x) t then and_then (End (Done [Leaf x] cur w')) (fun c v => go cs' c st v) else End Failed
              | [] => End Failed
              end
          | SMatchSet c =>
              match w with
              | x :: w' => if eval c (tt x) then and_then (End (Done [Leaf x] cur w')) (fun c v => go cs' c st v) else End Failed
              | [] => End Failed
              end
          | SCall r =>
              bind (go (code r) (enter_state r) (cur :: st) w) (fun o =>
                match o with
                | Done f _ w1 => and_then (End (Done [Node r f] cur w1)) (fun c v => go cs' c st v)
                | o => End o
                end)
          | SIfLa c b =>
              if eval c (la w) then and_then (go b cur st w) (fun c1 v => go cs' c1 st v) else go cs' cur st w
          | SWhileLa c b =>
              if eval c (la w) then and_then (go b cur st w) (fun c1 v => go (s :: cs') c1 st v) else go cs' cur st w
          | SDoLa c b =>
              and_then (go b cur st w) (fun c1 v => if eval c (la v) then go (s :: cs') c1 st v else go cs' c1 st v)
          | SSwitchLa bs =>
              match pick_case (la w) bs with
              | Some b => and_then (go b cur st w) (fun c1 v => go cs' c1 st v)
              | None => End Failed
              end
          | SPredict d bs =>
              Ask d st w (fun o =>
                match o with
                | Some (S j) =>
                    match nth_error bs j with
                    | Some b => and_then (go b cur st w) (fun c1 v => go cs' c1 st v)
                    | None => go cs' cur st w
                    end
                | Some O => go cs' cur st w
                | None => End Failed
                end)
          | SWhilePredict d b t =>
              Ask d st w (fun o =>
                match o with
                | Some 1 => and_then (go b cur st w) (fun c1 v => and_then (go t c1 st v) (fun c2 u => go (s :: cs') c2 st u))
                | Some 0 | Some 2 => go cs' cur st w
                | Some _ => and_then (go t cur st w) (fun c2 u => go (s :: cs') c2 st u)
                | None => End Failed
                end)
          | SDoPredict d b t =>
              and_then (go b cur st w) (fun c1 v => and_then (go t c1 st v) (fun c2 u =>
                Ask d st u (fun o =>
                  match o with
                  | Some 1 => go (s :: cs') c2 st u
                  | Some 0 | Some 2 => go cs' c2 st u
                  | Some _ => End Failed
                  | None => End Failed
                  end)))
          end
      end
  end.

(** p.AddressList() and p.DateTime() (parser.go:32, parser.go:55): the rule function of [r] on a fresh
    parser (its context has no invoking state; GetState is -1 until EnterRule sets it). *)
Definition start (n : nat) (r : rule) (w : word) : prog :=
  bind (run n (code r) (enter_state r) [] w) (fun o =>
    match o with Done f c w' => End (Done [Node r f] c w') | o => End o end).

(** The outcome with a runtime that has no memory. *)
(* /repo: parser/rfc5322_parser.go:872-14929 *)
Fixpoint exec (rt : runtime) (p : prog) : outcome :=
  match p with
  | End o => o
  | Ask d st w k => exec rt (k (predict rt d st w))
  | Test n t k => exec rt (k (sync_fails rt n t))
  end.

(* /repo: parser.go:32, parser.go:55 *)
Definition call (rt : runtime) (n : nat) (r : rule) (w : word) : outcome := exec rt (start n r w).

(** [every P p]: [p] ends with an outcome that has [P], whatever allowed replies it gets. *)
(* /repo: specification *)
Fixpoint every (P : outcome -> Prop) (p : prog) : Prop :=
  match p with
  | End o => P o
  | Ask d st w k => forall o, right d st w o -> every P (k o)
  | Test n t k => forall b, fair n t b -> every P (k b)
  end.
