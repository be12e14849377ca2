(** Byte-string helpers shared by the model: the parts of Go's strings and strconv packages the
    repository uses. *)
From Coq Require Import String Ascii List NArith ZArith Bool.
From Verif Require Import Lexer Utf8.
Import ListNotations.
Local Open Scope N_scope.

(** ASCII literals. *)
(* /repo: string literals of the files *.go *)
Definition bs (s : string) : gostring := map N_of_ascii (list_ascii_of_string s).

(* /repo: Go: == on strings; month.go:18-42, obs_zone.go:18-40 *)
Fixpoint eqb_str (a b : gostring) : bool :=
  match a, b with
  | [], [] => true
  | x :: a', y :: b' => (x =? y) && eqb_str a' b'
  | _, _ => false
  end.

(** strings.ToLower, ASCII part (its callers only see ASCII: tokens of type alpha and of the
    rule tokenChar). *)
(* /repo: month.go:18, obs_zone.go:18 *)
Definition lower_byte (c : byte) : byte := if in_range 65 90 c then c + 32 else c.
(* /repo: month.go:18, obs_zone.go:18 *)
Definition to_lower (s : gostring) : gostring := map lower_byte s.

(** strings.EqualFold, ASCII part. *)
(* /repo: encoded_word.go:16, in mime.WordDecoder *)
Definition equal_fold (a b : gostring) : bool := eqb_str (to_lower a) (to_lower b).

(** strings.HasPrefix *)
(* /repo: offset.go:22; encoded_word.go:16, in mime.WordDecoder *)
Fixpoint has_prefix (p s : gostring) : bool :=
  match p, s with
  | [], _ => true
  | x :: p', y :: s' => (x =? y) && has_prefix p' s'
  | _, _ => false
  end.

(** strings.HasSuffix *)
(* /repo: encoded_word.go:16, in mime.WordDecoder *)
Definition has_suffix (p s : gostring) : bool := has_prefix (rev p) (rev s).

(** strings.Count of a one-byte string *)
(* /repo: encoded_word.go:16, in mime.WordDecoder *)
Definition count_byte (c : byte) (s : gostring) : nat := length (filter (N.eqb c) s).

(** strings.IndexByte: the part before the first [c] and the part from it on; None if absent. *)
(* /repo: encoded_word.go:16, in mime.WordDecoder *)
Fixpoint split_at (c : byte) (s : gostring) : option (gostring * gostring) :=
  match s with
  | [] => None
  | x :: s' =>
      if x =? c then Some ([], s)
      else match split_at c s' with Some (a, b) => Some (x :: a, b) | None => None end
  end.

(** strings.Join *)
(* /repo: domain.go:22, local_part.go:22 *)
Fixpoint join (sep : gostring) (l : list gostring) : gostring :=
  match l with
  | [] => []
  | x :: l' => match l' with [] => x | _ => (x ++ sep ++ join sep l')%list end
  end.

(* /repo: strconv.Atoi: day.go:20 *)
Definition is_digit (c : byte) : bool := in_range 48 57 c.

(** strconv.Atoi on a string of at most 18 digits, without a sign; anything else is an error.
    (The callers pass concatenated Digit tokens, at most 4 of them.) *)
(* /repo: strconv.Atoi: day.go:20 *)
Fixpoint atoi_acc (acc : Z) (s : gostring) : option Z :=
  match s with
  | [] => Some acc
  | c :: s' => if is_digit c then atoi_acc (acc * 10 + (Z.of_N c - 48))%Z s' else None
  end.

(* /repo: strconv.Atoi: day.go:20, hour.go:20, minute.go:20, second.go:20, year.go:21 *)
Definition atoi (s : gostring) : option Z :=
  match s with
  | [] => None
  | _ => if Nat.leb (length s) 18 then atoi_acc 0%Z s else None
  end.
