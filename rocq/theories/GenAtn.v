(** The augmented transition networks of the generated parser and lexer: the decoded form of the integer
    arrays of GenAtnData.v.  The format is the one read by antlr.NewATNDeserializer(nil).Deserialize
    (called at /repo/parser/rfc5322_parser.go:602-603 and rfc5322_lexer.go:202-203): version 4, part of the
    ANTLR runtime, not of the repository. *)
From Coq Require Import List NArith ZArith Bool FMapPositive.
From Verif Require Import Lexer Grammar GenAtnData.
Import ListNotations.

(** Transitions: EPSILON; ATOM, RANGE and SET (the labels are inclusive ranges); RULE. *)
(* /repo: antlr.ATNDeserializer: parser/rfc5322_parser.go:602-603 *)
Inductive edge : Type :=
| EEps (target : N)
| ETok (ranges : list (Z * Z)) (target : N)
| ERule (start : N) (ix : N) (follow : N).

(* /repo: antlr.ATNDeserializer: parser/rfc5322_parser.go:602-603 *)
Record atn : Type := mkAtn {
  a_types : PositiveMap.t N;            (* state types *)
  a_edges : PositiveMap.t (list edge);  (* transitions, in order *)
  a_starts : list (N * Z);              (* rule start states (lexer: with their token type) *)
  a_modes : list N;                     (* lexer modes: token start states *)
  a_decisions : list N;                 (* decision states *)
  a_rules : PositiveMap.t N }.          (* the rule to which a state belongs *)

(* /repo: antlr.ATNDeserializer: parser/rfc5322_parser.go:602-603 *)
Definition get {A : Type} (m : PositiveMap.t A) (s : N) : option A := PositiveMap.find (N.succ_pos s) m.
(* /repo: antlr.ATNDeserializer: parser/rfc5322_parser.go:602-603 *)
Definition put {A : Type} (s : N) (x : A) (m : PositiveMap.t A) : PositiveMap.t A := PositiveMap.add (N.succ_pos s) x m.

(** ** The reader: functions from the remaining numbers to a value and the remaining numbers *)
(* /repo: antlr.ATNDeserializer: parser/rfc5322_parser.go:602-603 *)
Definition rd (A : Type) : Type := list Z -> option (A * list Z).

(* /repo: antlr.ATNDeserializer: parser/rfc5322_parser.go:602-603 *)
Definition rd_ret {A} (x : A) : rd A := fun l => Some (x, l).
(* /repo: antlr.ATNDeserializer: parser/rfc5322_parser.go:602-603 *)
Definition rd_bind {A B} (p : rd A) (f : A -> rd B) : rd B := fun l => match p l with Some (x, l') => f x l' | None => None end.
(* /repo: antlr.ATNDeserializer: parser/rfc5322_parser.go:602-603 *)
Definition rd_fail {A} : rd A := fun _ => None.
(* /repo: antlr.ATNDeserializer: parser/rfc5322_parser.go:602-603 *)
Definition rd_int : rd Z := fun l => match l with x :: l' => Some (x, l') | [] => None end.
(* /repo: antlr.ATNDeserializer: parser/rfc5322_parser.go:602-603 *)
Definition rd_nat : rd N := rd_bind rd_int (fun x => if (0 <=? x)%Z then rd_ret (Z.to_N x) else rd_fail).

(* /repo: antlr.ATNDeserializer: parser/rfc5322_parser.go:602-603 *)
Fixpoint rd_times {A} (n : nat) (p : rd A) : rd (list A) :=
  match n with
  | O => rd_ret []
  | S n' => rd_bind p (fun x => rd_bind (rd_times n' p) (fun xs => rd_ret (x :: xs)))
  end.

(* /repo: antlr.ATNDeserializer: parser/rfc5322_parser.go:602-603 *)
Definition rd_list {A} (p : rd A) : rd (list A) := rd_bind rd_nat (fun n => rd_times (N.to_nat n) p).

(** A state: its type, its rule, and for block starts (3, 4, 5) and loop ends (12) one more state number. *)
(* /repo: antlr.ATNDeserializer: parser/rfc5322_parser.go:602-603 *)
Definition rd_state : rd (N * N) :=
  rd_bind rd_nat (fun t => if N.eqb t 0 then rd_ret (t, 65535%N) else
    rd_bind rd_int (fun z => let r := if (z <? 0)%Z then 65535%N else Z.to_N z in
      if existsb (N.eqb t) [3; 4; 5; 12]%N then rd_bind rd_nat (fun _ => rd_ret (t, r)) else rd_ret (t, r))).

(** A set: a number of ranges, whether it contains EOF, and the ranges. *)
(* /repo: antlr.ATNDeserializer: parser/rfc5322_parser.go:602-603 *)
Definition rd_set : rd (list (Z * Z)) :=
  rd_bind rd_nat (fun n => rd_bind rd_int (fun eof =>
    rd_bind (rd_times (N.to_nat n) (rd_bind rd_int (fun a => rd_bind rd_int (fun b => rd_ret (a, b))))) (fun rs =>
      rd_ret (if Z.eqb eof 0 then rs else ((-1)%Z, (-1)%Z) :: rs)))).

(** A transition: source, target, type, three arguments.  Types: 1 EPSILON, 2 RANGE, 3 RULE, 5 ATOM, 7 SET.
    The third argument of ATOM and RANGE says that the (first) label is EOF. *)
(* /repo: antlr.ATNDeserializer: parser/rfc5322_parser.go:602-603 *)
Definition rd_edge (sets : list (list (Z * Z))) : rd (N * edge) :=
  rd_bind rd_nat (fun src => rd_bind rd_nat (fun trg => rd_bind rd_nat (fun t =>
    rd_bind rd_int (fun a1 => rd_bind rd_int (fun a2 => rd_bind rd_int (fun a3 =>
      match t with
      | 1%N => rd_ret (src, EEps trg)
      | 2%N => rd_ret (src, ETok [(if Z.eqb a3 0 then a1 else (-1)%Z, a2)] trg)
      | 3%N => rd_ret (src, ERule (Z.to_N a1) (Z.to_N a2) trg)
      | 5%N => let l := if Z.eqb a3 0 then a1 else (-1)%Z in rd_ret (src, ETok [(l, l)] trg)
      | 7%N => match nth_error sets (Z.to_nat a1) with Some s => rd_ret (src, ETok s trg) | None => rd_fail end
      | _ => rd_fail
      end)))))).

(* /repo: antlr.ATNDeserializer: parser/rfc5322_parser.go:602-603 *)
Fixpoint number {A} (n : N) (l : list A) (m : PositiveMap.t A) : PositiveMap.t A :=
  match l with [] => m | x :: l' => number (N.succ n) l' (put n x m) end.

(* /repo: antlr.ATNDeserializer: parser/rfc5322_parser.go:602-603 *)
Definition add_edge (m : PositiveMap.t (list edge)) (e : N * edge) : PositiveMap.t (list edge) :=
  put (fst e) (match get m (fst e) with Some l => l ++ [snd e] | None => [snd e] end) m.

(** The whole array.  [lx]: the grammar type is lexer (0), not parser (1). *)
(* /repo: antlr.ATNDeserializer: parser/rfc5322_parser.go:602-603 *)
Definition rd_atn : rd atn :=
  rd_bind rd_int (fun version => if negb (Z.eqb version 4) then rd_fail else
  rd_bind rd_int (fun kind => let lx := Z.eqb kind 0 in
  rd_bind rd_int (fun _ => (* largest token type *)
  rd_bind (rd_list rd_state) (fun states =>
  rd_bind (rd_list rd_int) (fun nongreedy => match nongreedy with _ :: _ => rd_fail | [] =>
  rd_bind (rd_list rd_int) (fun precedence => match precedence with _ :: _ => rd_fail | [] =>
  rd_bind (rd_list (rd_bind rd_nat (fun s => if lx then rd_bind rd_int (fun t => rd_ret (s, t)) else rd_ret (s, 0%Z)))) (fun starts =>
  rd_bind (rd_list rd_nat) (fun modes =>
  rd_bind (rd_list rd_set) (fun sets =>
  rd_bind (rd_list (rd_edge sets)) (fun edges =>
  rd_bind (rd_list rd_nat) (fun decisions =>
  rd_bind (if lx then rd_list rd_int else rd_ret []) (fun actions => match actions with _ :: _ => rd_fail | [] =>
  rd_ret (mkAtn (number 0 (map fst states) (PositiveMap.empty N)) (fold_left add_edge edges (PositiveMap.empty (list edge))) starts modes decisions
    (number 0 (map snd states) (PositiveMap.empty N)))
  end)))))) end) end))))).

(* /repo: antlr.ATNDeserializer: parser/rfc5322_parser.go:602-603 *)
Definition decoded (l : list Z) : option atn := match rd_atn l with Some (a, []) => Some a | _ => None end.

(** The two networks.  That the arrays decode is [parser_decodes] and [lexer_decodes]. *)
(* /repo: no counterpart in /repo *)
Definition no_atn : atn := mkAtn (PositiveMap.empty N) (PositiveMap.empty (list edge)) [] [] [] (PositiveMap.empty N).

(* /repo: parser/rfc5322_parser.go:603 *)
Definition parser_atn : atn := Eval vm_compute in match decoded parser_serialized with Some a => a | None => no_atn end.
(* /repo: parser/rfc5322_lexer.go:203 *)
Definition lexer_atn : atn := Eval vm_compute in match decoded lexer_serialized with Some a => a | None => no_atn end.

Lemma parser_decodes : decoded parser_serialized = Some parser_atn.
Proof. vm_compute. reflexivity. Qed.

Lemma lexer_decodes : decoded lexer_serialized = Some lexer_atn.
Proof. vm_compute. reflexivity. Qed.
