(** Go strings and runes.

    A Go [string] is a list of bytes (each < 256).  [decode] models the conversion
    [[]rune(s)] done by antlr.NewInputStream (called at /repo/parser.go:24 and :47): Go
    language spec, "Conversions to and from a string type", and unicode/utf8: every byte that
    does not start a well-formed sequence becomes one U+FFFD.  [encode] models
    [string([]rune)], which the ANTLR runtime uses to give a token its text. *)
From Coq Require Import List NArith Bool.
From Verif Require Import Lexer.
Import ListNotations.
Local Open Scope N_scope.

(* /repo: parser.go:19: a byte of the input *)
Definition byte := N.
(* /repo: parser.go:19: string *)
Definition gostring := list byte.

(** Go's utf8.RuneError. *)
(* /repo: parser.go:24: what an ill-formed byte becomes *)
Definition rune_error : rune := 65533.

(* /repo: parser.go:24: continuation byte *)
Definition cont (b : byte) : bool := in_range 128 191 b.

(** unicode/utf8: the [first]/[acceptRanges] tables.  Returns the rune and the remaining bytes. *)
(* /repo: parser.go:24 *)
Definition decode1 (b0 : byte) (s : gostring) : rune * gostring :=
  if b0 <? 128 then (b0, s)
  else if in_range 194 223 b0 then
    match s with
    | b1 :: s1 => if cont b1 then ((b0 - 192) * 64 + (b1 - 128), s1) else (rune_error, s)
    | _ => (rune_error, s)
    end
  else if in_range 224 239 b0 then
    match s with
    | b1 :: b2 :: s2 =>
        if in_range (if b0 =? 224 then 160 else 128) (if b0 =? 237 then 159 else 191) b1
           && cont b2
        then ((b0 - 224) * 4096 + (b1 - 128) * 64 + (b2 - 128), s2)
        else (rune_error, s)
    | _ => (rune_error, s)
    end
  else if in_range 240 244 b0 then
    match s with
    | b1 :: b2 :: b3 :: s3 =>
        if in_range (if b0 =? 240 then 144 else 128) (if b0 =? 244 then 143 else 191) b1
           && cont b2 && cont b3
        then ((b0 - 240) * 262144 + (b1 - 128) * 4096 + (b2 - 128) * 64 + (b3 - 128), s3)
        else (rune_error, s)
    | _ => (rune_error, s)
    end
  else (rune_error, s).

(** The loop; fuel is the number of bytes, which is always enough since each step consumes
    at least one byte. *)
(* /repo: parser.go:24 *)
Fixpoint decode_fuel (n : nat) (s : gostring) : list rune :=
  match n, s with
  | S n', b0 :: s' => let '(r, s1) := decode1 b0 s' in r :: decode_fuel n' s1
  | _, _ => []
  end.

(* /repo: parser.go:24 *)
Definition decode (s : gostring) : list rune := decode_fuel (length s) s.

(** Go: string(rune) for valid runes; surrogates and values above U+10FFFF give U+FFFD. *)
(* /repo: atom.go:13: text of a token *)
Definition encode1 (r : rune) : gostring :=
  if r <? 128 then [r]
  else if r <? 2048 then [192 + r / 64; 128 + r mod 64]
  else if in_range 55296 57343 r || (1114111 <? r) then [239; 191; 189]
  else if r <? 65536 then [224 + r / 4096; 128 + (r / 64) mod 64; 128 + r mod 64]
  else [240 + r / 262144; 128 + (r / 4096) mod 64; 128 + (r / 64) mod 64; 128 + r mod 64].

(* /repo: atom.go:13: text of several tokens *)
Definition encode (rs : list rune) : gostring := flat_map encode1 rs.
