(** Specification vocabulary for the address properties: texts as lists of characters (Unicode
    code points), independent of the grammar, the parser and the walker. *)
From Coq Require Import String List NArith Bool.
From Verif Require Import Lexer Utf8 Strs DateSpec.
Import ListNotations.
Local Open Scope N_scope.

(** RFC 5322 atext, extended (as the package does) to the code points U+0080 .. U+FFFF. *)
Definition atext_char (r : rune) : bool :=
  in_range 65 90 r || in_range 97 122 r || in_range 48 57 r || in_range 128 65535 r ||
  existsb (N.eqb r) (bs "!#$%&'*+-/=?^_`{|}~").

Definition atom (a : list rune) : Prop := a <> [] /\ Forall (fun r => atext_char r = true) a.

(** atoms separated by single periods, and possibly a final period *)
Definition dot_atom (d : list rune) : Prop :=
  exists l, l <> [] /\ Forall atom l /\ (d = join (bs ".") l \/ d = join (bs ".") l ++ bs ".").

(** what may stand between the brackets of a domain literal: white space, and printable characters
    other than brackets and backslash *)
Definition literal_char (r : rune) : bool :=
  existsb (N.eqb r) [32; 9; 13; 10] ||
  ((in_range 33 126 r || in_range 128 65535 r) && negb (existsb (N.eqb r) (bs "[]\"))).

Definition bracketed (d : list rune) : Prop :=
  exists m, d = bs "[" ++ m ++ bs "]" /\ Forall (fun r => literal_char r = true) m.

Definition digit_char (r : rune) : bool := in_range 48 57 r.

(** nothing, or a colon and digits *)
Definition port_suffix (p : list rune) : Prop :=
  p = [] \/ exists ds, p = bs ":" ++ ds /\ ds <> [] /\ Forall (fun r => digit_char r = true) ds.

(** [subseq a b]: [a] is [b] with some elements left out. *)
Inductive subseq {A} : list A -> list A -> Prop :=
| sub_nil : forall b, subseq [] b
| sub_take : forall x a b, subseq a b -> subseq (x :: a) (x :: b)
| sub_drop : forall y a b, subseq a b -> subseq a (y :: b).

Definition no_spaces (s : list rune) : list rune := filter (fun r => negb (r =? 32)) s.

(** [part u s]: [u] occurs in [s] as a run of consecutive elements. *)
Definition part {A} (u s : list A) : Prop := exists a b, s = a ++ u ++ b.

(** visible characters: not an ASCII control character and not a space *)
Definition visible (r : rune) : bool := in_range 33 126 r || (128 <=? r).

(** The characters of an input that the lexer knows (code points up to U+FFFF). *)
Definition kept (s : gostring) : list rune := filter bmp (decode s).
