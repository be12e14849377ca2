(** How Go formats an address: mail.Address.String of the standard library, which users of the
    package call on the *mail.Address values that ParseAddressList returns.  Transcribed from Go 1.14
    src/net/mail/message.go and src/mime/encodedword.go (not part of the repository). *)
From Coq Require Import String List NArith Bool Arith.
From Verif Require Import Lexer Utf8 Strs Walker.
Import ListNotations.
Local Open Scope N_scope.

(** * net/mail/message.go *)

(* /repo: parser.go:19: the type of the results is *mail.Address; isMultibyte *)
Definition is_multibyte (r : rune) : bool := 128 <=? r.
(* /repo: parser.go:19; isVchar *)
Definition is_vchar (r : rune) : bool := in_range 33 126 r || is_multibyte r.
(* /repo: parser.go:19; isWSP *)
Definition is_wsp (r : rune) : bool := (r =? 32) || (r =? 9).
(* /repo: parser.go:19; isAtext(r, false, false) *)
Definition is_atext (r : rune) : bool := if existsb (N.eqb r) (bs ".()[];@\,<>"":") then false else is_vchar r.
(* /repo: parser.go:19; isQtext *)
Definition is_qtext (r : rune) : bool := if (r =? 92) || (r =? 34) then false else is_vchar r.

(* /repo: parser.go:19; quoteString *)
Definition quote_string (s : gostring) : gostring :=
  [34] ++ flat_map (fun r => if is_qtext r || is_wsp r then encode1 r else if is_vchar r then 92 :: encode1 r else []) (decode s) ++ [34].

(** strings.LastIndex(s, "@"): the parts before and after; None if there is none *)
(* /repo: parser.go:19; Address.String *)
Fixpoint last_at (s : gostring) : option (gostring * gostring) :=
  match s with
  | [] => None
  | c :: s' =>
      match last_at s' with
      | Some (a, b) => Some (c :: a, b)
      | None => if c =? 64 then Some ([], s') else None
      end
  end.

(** The loop that sets quoteLocal; [prev] is the previous character, None at the start.  A period is
    one byte and never part of a longer character, so looking at the previous and next characters
    instead of local[i-1] and len(local) makes no difference. *)
(* /repo: parser.go:19; Address.String *)
Fixpoint quote_local (prev : option rune) (l : list rune) : bool :=
  match l with
  | [] => false
  | r :: l' =>
      if is_atext r then quote_local (Some r) l'
      else if (r =? 46) && match prev with Some p => negb (p =? 46) | None => false end && match l' with [] => false | _ => true end
      then quote_local (Some r) l'
      else true
  end.

(** * mime/encodedword.go *)

(** the bytes of the characters of a string: what utf8.DecodeRuneInString takes, one after the other;
    fuel as for [decode] *)
(* /repo: parser.go:19; bEncode, qEncode *)
Fixpoint chars_fuel (n : nat) (s : gostring) : list gostring :=
  match n, s with
  | S n', b0 :: s' => let '(_, s1) := decode1 b0 s' in firstn (length s - length s1) s :: chars_fuel n' s1
  | _, _ => []
  end.
(* /repo: parser.go:19; bEncode, qEncode *)
Definition chars (s : gostring) : list gostring := chars_fuel (length s) s.

(* /repo: parser.go:19; needsEncoding *)
Definition needs_encoding (s : gostring) : bool := existsb (fun r => ((r <? 32) || (126 <? r)) && negb (r =? 9)) (decode s).

(** base64.StdEncoding *)
(* /repo: parser.go:19; bEncode *)
Definition b64_digit (v : N) : byte :=
  if v <? 26 then 65 + v else if v <? 52 then 97 + (v - 26) else if v <? 62 then 48 + (v - 52) else if v =? 62 then 43 else 47.
(* /repo: parser.go:19; bEncode *)
Fixpoint b64_encode (s : gostring) : gostring :=
  match s with
  | [] => []
  | [a] => [b64_digit (a / 4); b64_digit ((a mod 4) * 16); 61; 61]
  | [a; b] => [b64_digit (a / 4); b64_digit ((a mod 4) * 16 + b / 16); b64_digit ((b mod 16) * 4); 61]
  | a :: b :: c :: s' => b64_digit (a / 4) :: b64_digit ((a mod 4) * 16 + b / 16) :: b64_digit ((b mod 16) * 4 + c / 64) :: b64_digit (c mod 64) :: b64_encode s'
  end.

(** the pieces of a name for base64: all of it if that takes at most 63 characters, else at most 45
    bytes each; [cur] is s[last:i] *)
(* /repo: parser.go:19; bEncode *)
Fixpoint b_split (cur : gostring) (l : list gostring) : list gostring :=
  match l with
  | [] => [cur]
  | c :: l' => if Nat.leb (length cur + length c) 45 then b_split (cur ++ c) l' else cur :: b_split c l'
  end.
(* /repo: parser.go:19; bEncode *)
Definition b_pieces (s : gostring) : list gostring :=
  if Nat.leb ((length s + 2) / 3 * 4) 63 then [s] else b_split [] (chars s).

(** bytes written as they are; space is among them, as an underscore *)
(* /repo: parser.go:19; qEncode *)
Definition q_plain (b : byte) : bool := in_range 32 126 b && negb ((b =? 61) || (b =? 63) || (b =? 95)).
(* /repo: parser.go:19; upperhex *)
Definition upper_hex (v : N) : byte := if v <? 10 then 48 + v else 55 + v.
(* /repo: parser.go:19; writeQString *)
Definition q_write (s : gostring) : gostring :=
  flat_map (fun b => if b =? 32 then [95] else if q_plain b then [b] else [61; upper_hex (b / 16); upper_hex (b mod 16)]) s.

(** the length of a character, encoded *)
(* /repo: parser.go:19; qEncode *)
Definition q_cost (c : gostring) : nat := match c with [b] => if q_plain b then 1 else 3 | _ => 3 * length c end.

(** the pieces of a name for Q: at most 63 characters each; [cur] is the piece so far, [n] its length,
    encoded *)
(* /repo: parser.go:19; qEncode *)
Fixpoint q_split (n : nat) (cur : gostring) (l : list gostring) : list gostring :=
  match l with
  | [] => [cur]
  | c :: l' => if Nat.ltb 63 (n + q_cost c) then cur :: q_split (q_cost c) c l' else q_split (n + q_cost c) (cur ++ c) l'
  end.

(* /repo: parser.go:19; openWord, closeWord *)
Definition open_word (e : gostring) (text : gostring) : gostring := bs "=?utf-8?" ++ e ++ bs "?" ++ text ++ bs "?=".

(** mime.BEncoding.Encode("utf-8", s) *)
(* /repo: parser.go:19; WordEncoder.Encode *)
Definition b_word (s : gostring) : gostring :=
  if needs_encoding s then join (bs " ") (map (fun p => open_word (bs "b") (b64_encode p)) (b_pieces s)) else s.

(** mime.QEncoding.Encode("utf-8", s) *)
(* /repo: parser.go:19; WordEncoder.Encode *)
Definition q_word (s : gostring) : gostring :=
  if needs_encoding s then join (bs " ") (map (fun p => open_word (bs "q") (q_write p)) (q_split 0 [] (chars s))) else s.

(** * net/mail/message.go: Address.String *)

(* /repo: parser.go:19 *)
Definition address_string (a : addr) : gostring :=
  let '(local, domain) := match last_at (a_address a) with Some p => p | None => (a_address a, []) end in
  let local := if quote_local None (decode local) then quote_string local else local in
  let s := bs "<" ++ local ++ bs "@" ++ domain ++ bs ">" in
  match a_name a with
  | [] => s
  | name =>
      if forallb (fun r => (is_vchar r || is_wsp r) && negb (is_multibyte r)) (decode name)
      then quote_string name ++ bs " " ++ s
      else if existsb (fun b => existsb (N.eqb b) (bs """#$%&'(),.:;<>@[]^`{|}~")) name
      then b_word name ++ bs " " ++ s
      else q_word name ++ bs " " ++ s
  end.
