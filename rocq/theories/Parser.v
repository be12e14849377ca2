(** The parser: ANTLR's ALL( * ) prediction driving the generated recursive-descent code.

    Models the generated rule functions of /repo/parser/rfc5322_parser.go together with the
    prediction step they call (p.GetInterpreter().AdaptivePredict, part of the ANTLR runtime,
    not of the repository).  A generated function consumes a token for each token of its rule,
    calls the function of each sub-rule, and at each decision (block of alternatives, optional
    item, loop) asks for the alternative to take.  ALL( * ) prediction in LL mode with full
    context takes the lowest-numbered alternative from which the whole remaining input can be
    parsed, given the stack of pending rules; entering an optional item or a loop is
    alternative 1.  The simulation is modelled by [ends] below, which computes the set of
    input suffixes reachable after a grammar expression (the role of the ATN configuration
    sets); the descent is [descend].  Error recovery is not modelled: parser.go:33 and :56
    return as soon as an error was reported, so its result is never seen. *)
From Coq Require Import List NArith Bool Arith.
From Verif Require Import Lexer Grammar.
Import ListNotations.

(* /repo: parser.go:25: the token stream *)
Definition word := list tok.

(** Parse trees: antlr.TerminalNode and the rule contexts of parser/rfc5322_parser.go. *)
Inductive tree : Type :=
| Leaf (t : tok)
| Node (r : rule) (ch : list tree).

(* /repo: ANTLR runtime: the tokens of a parse tree (parser.go:31) *)
Fixpoint yield (t : tree) : word :=
  match t with
  | Leaf k => [k]
  | Node _ ch => flat_map yield ch
  end.

(* /repo: ANTLR runtime: the same for the children of a node *)
Definition yields (f : list tree) : word := flat_map yield f.

(* /repo: parser/rfc5322_parser.go:898: is the next token one of these *)
Definition memb (t : ttype) (ts : list ttype) : bool := existsb (N.eqb t) ts.

(** Sets of suffixes of one input: lists strictly decreasing in length. *)
(* /repo: prediction of the ANTLR runtime (parser/rfc5322_parser.go:1039): configurations *)
Definition sset := list word.

(* /repo: as above: merging configurations *)
Fixpoint merge (x : sset) : sset -> sset :=
  fix aux (y : sset) : sset :=
    match x, y with
    | [], _ => y
    | _, [] => x
    | a :: x', b :: y' =>
        match Nat.compare (length a) (length b) with
        | Gt => a :: merge x' y
        | Eq => a :: merge x' y'
        | Lt => b :: aux y'
        end
    end.

(** Suffixes reachable by matching one token. *)
(* /repo: as above: moving over a token *)
Definition step_cls (ts : list ttype) (s : sset) : sset :=
  flat_map (fun w => match w with
                     | t :: w' => if memb (tt t) ts then [w'] else []
                     | [] => []
                     end) s.

(** [ends n g s]: the suffixes that remain after parsing [g] at one of the suffixes [s].
    [n] is fuel, shown sufficient in ParserFacts. *)
(* /repo: as above: RFC5322Parser.g4 by [body] *)
Fixpoint ends (n : nat) (g : gexp) (s : sset) : sset :=
  match n with
  | O => []
  | S n' =>
      match s with
      | [] => []
      | _ =>
          match g with
          | Cls ts => step_cls ts s
          | Eps => s
          | Nt r => ends n' (body r) s
          | Seq a b => ends n' b (ends n' a s)
          | Alt a b => merge (ends n' a s) (ends n' b s)
          | Star a => merge s (ends n' (Star a) (ends n' a s))
          end
      end
  end.

(** [accepts n k w]: can the stack [k] of pending expressions parse exactly [w]? *)
(* /repo: as above *)
Fixpoint accepts_set (n : nat) (k : list gexp) (s : sset) : bool :=
  match k with
  | [] => existsb (fun w => match w with [] => true | _ => false end) s
  | g :: k' => accepts_set n k' (ends n g s)
  end.

(* /repo: as above: is an alternative viable *)
Definition accepts (n : nat) (k : list gexp) (w : word) : bool := accepts_set n k [w].

(** The descent: the trees built for [g] at input [w] when [k] is still to be parsed
    afterwards, and the remaining input. *)
(* /repo: the generated functions, parser/rfc5322_parser.go:872-14929 (tied to them by C48) *)
Fixpoint descend (n : nat) (g : gexp) (k : list gexp) (w : word) : option (list tree * word) :=
  match n with
  | O => None
  | S n' =>
      match g with
      | Cls ts =>
          match w with
          | t :: w' => if memb (tt t) ts then Some ([Leaf t], w') else None
          | [] => None
          end
      | Eps => Some ([], w)
      | Nt r =>
          match descend n' (body r) k w with
          | Some (f, w1) => Some ([Node r f], w1)
          | None => None
          end
      | Seq a b =>
          match descend n' a (b :: k) w with
          | Some (f1, w1) =>
              match descend n' b k w1 with
              | Some (f2, w2) => Some (f1 ++ f2, w2)
              | None => None
              end
          | None => None
          end
      | Alt a b =>
          if accepts n' (a :: k) w then descend n' a k w else descend n' b k w
      | Star a =>
          if accepts n' (a :: Star a :: k) w then
            match descend n' a (Star a :: k) w with
            | Some (f1, w1) =>
                match descend n' (Star a) k w1 with
                | Some (f2, w2) => Some (f1 ++ f2, w2)
                | None => None
                end
            | None => None
            end
          else Some ([], w)
      end
  end.

(** Fuel: see ParserFacts.fuel_enough. *)
(* /repo: no counterpart in /repo *)
Definition fuel_per_token : nat := 200.
(* /repo: no counterpart in /repo *)
Definition fuel (w : word) : nat := (S (length w)) * fuel_per_token.

(** p.AddressList() / p.DateTime() (parser.go:32, :55): the tree, or None when a syntax error is
    reported. *)
Definition parse (r : rule) (w : word) : option tree :=
  match descend (fuel w) (Nt r) [] w with
  | Some ([t], []) => Some t
  | _ => None
  end.
