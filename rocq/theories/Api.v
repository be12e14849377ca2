(** The two functions the package exports: /repo/parser.go. *)
From Coq Require Import String List NArith ZArith Bool.
From Verif Require Import Lexer Grammar Utf8 Strs Mime GoTime Parser Walker.
Import ListNotations.

(** Everything a call depends on besides its argument: the walk's environment and the lexer's
    treatment of characters above U+FFFF (see Lexer.v). *)
(* /repo: parser.go:15-16 (CharsetReader), year.go:28 (time.Now), and the lexer of parser.go:24 *)
Record env : Type := mkEnv { wenv_of : wenv; bad_rune : recovery }.

(* /repo: parser.go:19 and :42: the results, or a panic *)
Inductive outcome (A : Type) : Type :=
| Panic
| Ret (v : A) (e : option error).
Arguments Panic {A}.
Arguments Ret {A} v e.

(** parser.go:24-25, :47-48: the token stream of an input *)
Definition tokens (e : env) (input : gostring) : list tok := lex (bad_rune e) (decode input).

(** parser.go:19-40 *)
Definition ParseAddressList (e : env) (input : gostring) : outcome slice :=
  match input with
  | [] => Ret (Some []) None
  | _ =>
      match parse R_addressList (tokens e input) with
      | None => Ret None (Some ESyntax)
      | Some t =>
          match walk (wenv_of e) t init_w with
          | Some st =>
              match res st with
              | ResList s => Ret s (err st)
              | _ => Panic                       (* failed type assertion on w.res *)
              end
          | None => Panic
          end
      end
  end.

(** parser.go:42-62 *)
Definition ParseDateTime (e : env) (input : gostring) : outcome time :=
  match input with
  | [] => Ret zero_time None
  | _ =>
      match parse R_dateTime (tokens e input) with
      | None => Ret zero_time (Some ESyntax)
      | Some t =>
          match walk (wenv_of e) t init_w with
          | Some st =>
              match res st with
              | ResTime v => Ret v (err st)
              | _ => Panic                       (* w.res.(time.Time) *)
              end
          | None => Panic
          end
      end
  end.
