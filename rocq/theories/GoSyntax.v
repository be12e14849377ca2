(** The part of Go that the hand-written files of the repository use, as data: expressions, statements,
    functions, methods, struct and interface types.  GoCode.v holds the files in this form. *)
From Coq Require Import String List NArith ZArith Bool.
From Verif Require Import Lexer.
Import ListNotations.

(** Types.  Names of other packages are qualified; names of package parser too, within it. *)
(* /repo: types written in the files *.go *)
Inductive gty : Type :=
| TName (n : string)
| TPtr (t : gty)
| TSlice (t : gty).

(* /repo: operators in the files *.go *)
Inductive binop : Type := OAdd | OSub | OMul | ORem | OEq | ONe | OGt | OAnd | OOr.

(* /repo: expressions in the files *.go *)
Inductive gexpr : Type :=
| EVar (x : string)
| EStr (s : string)
| EInt (z : Z)
| EBool (b : bool)
| ENil
| EConst (t : ttype)                                    (* a constant RFC5322Parser... *)
| EEmpty (t : gty)                                    (* []T{} *)
| EField (e : gexpr) (f : string)
| ENew (t : string) (fs : list (string * gexpr))       (* &T{f: e, ...} *)
| EStruct (t : string) (fs : list (string * gexpr))    (* T{f: e, ...} *)
| EBin (o : binop) (a b : gexpr)
| ENot (e : gexpr)
| ENeg (e : gexpr)
| EGlobal (x : string)                                (* a variable or constant of a package *)
| ECall (f : string) (args : list gexpr)               (* a function of another package *)
| EMethod (e : gexpr) (m : string) (args : list gexpr)
| EAssert (e : gexpr) (t : gty)                        (* e.(T) *)
| EIndex (e i : gexpr)
| ESlice (e a b : gexpr)                               (* e[a:b] *)
| ELen (e : gexpr)
| EToInt (e : gexpr)                                   (* int(e) *)
| EAppend (a e : gexpr)
| EAppendAll (a b : gexpr).                            (* append(a, b...) *)

(** The methods of an interface type with their parameter types. *)
(* /repo: interface types in the files *.go *)
Definition iface : Type := list (string * list gty).

(** Local interface types are written at their only use.  "if x, ok := e.(I); ok { b }" is one statement. *)
(* /repo: statements in the files *.go *)
Inductive gstmt : Type :=
| SVar (x : string) (t : gty)
| SDefine (xs : list string) (e : gexpr)               (* x, y := e *)
| SAssign (l e : gexpr)
| SAddAssign (l e : gexpr)                             (* l += e *)
| SExpr (e : gexpr)
| SIf (c : gexpr) (a b : list gstmt)
| SIfIs (x : string) (e : gexpr) (i : iface) (b : list gstmt)
| SRange (x : string) (e : gexpr) (b : list gstmt)      (* for _, x := range e *)
| SSwitch (e : gexpr) (cases : list (gexpr * list gstmt)) (d : list gstmt)
| SReturn (es : list gexpr).

(* /repo: functions in the files *.go *)
Record fn : Type := mkFn { f_recv : string; f_params : list (string * gty); f_body : list gstmt }.
(** Type of the receiver (a pointer to it), name, function. *)
(* /repo: methods in the files *.go *)
Definition method : Type := string * string * fn.
(* /repo: a package *)
Record program : Type := mkProg {
  p_structs : list (string * list (string * gty));
  p_embeds : list (string * string);                  (* a struct type and a type embedded in it *)
  p_methods : list method;
  p_funcs : list (string * fn) }.
