(** The statements that occur in the generated rule functions of /repo/parser/rfc5322_parser.go. *)
From Coq Require Import List NArith ZArith.
From Verif Require Import Lexer Grammar.
Import ListNotations.

(** A disjunct of a condition on the variable _la:
    [CEq T]           _la == T
    [CBits off ts]    ((_la-off)&-(0x1f+1)) == 0 && ((1<<uint(_la-off))&((1<<(T1-off))|(1<<(T2-off))|...)) != 0 *)
(* /repo: parser/rfc5322_parser.go:3002 *)
Inductive cond1 : Type :=
| CEq (t : ttype)
| CBits (off : N) (ts : list ttype).

(* /repo: parser/rfc5322_parser.go:3002 *)
Definition cond := list cond1.

(** [SState n]               p.SetState(n)
    [SSync]                  p.GetErrorHandler().Sync(p)
    [SMatch T]               p.Match(T)
    [SMatchSet c]            _la = LA(1); if !c { RecoverInline } else { ReportMatch; Consume }
    [SCall r]                p.Rule()
    [SIfLa c b]              _la = LA(1); if c { b }
    [SWhileLa c b]           _la = LA(1); for c { b; _la = LA(1) }
    [SDoLa c b]              _la = LA(1); for ok := true; ok; ok = c { b; _la = LA(1) }
    [SSwitchLa cs]           switch LA(1) { case ts: b ... default: panic(NoViableAlt) }
    [SPredict d bs]          switch AdaptivePredict(d) { case 1: b1 case 2: b2 ... }
                             (also written if AdaptivePredict(d) == 1 { b1 } else if ... == 2 { b2 })
    [SWhilePredict d b t]    _alt = AdaptivePredict(d); for _alt != 2 && _alt != 0 { if _alt == 1 { b }; t; _alt = AdaptivePredict(d) }
    [SDoPredict d b t]       _alt = 1; for ok := true; ok; ok = _alt != 2 && _alt != 0
                               { switch _alt { case 1: b default: panic(NoViableAlt) }; t; _alt = AdaptivePredict(d) } *)
(* /repo: parser/rfc5322_parser.go:872-14929 *)
Inductive stmt : Type :=
| SState (n : N)
| SSync
| SMatch (t : ttype)
| SMatchSet (c : cond)
| SCall (r : rule)
| SIfLa (c : cond) (b : list stmt)
| SWhileLa (c : cond) (b : list stmt)
| SDoLa (c : cond) (b : list stmt)
| SSwitchLa (cs : list (list ttype * list stmt))
| SPredict (d : N) (bs : list (list stmt))
| SWhilePredict (d : N) (b t : list stmt)
| SDoPredict (d : N) (b t : list stmt).
