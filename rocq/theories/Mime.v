(** RFC 2047 decoding: mime.WordDecoder.Decode of the Go standard library, called at
    /repo/encoded_word.go:14-19.  Transcribed from Go 1.14 src/mime/encodedword.go and
    src/encoding/base64/base64.go (not part of the repository). *)
From Coq Require Import String List NArith Bool.
From Verif Require Import Lexer Utf8 Strs.
Import ListNotations.
Local Open Scope N_scope.

(** mime/encodedword.go: fromHex, readHexByte *)
Definition from_hex (c : byte) : option N :=
  if in_range 48 57 c then Some (c - 48)
  else if in_range 65 70 c then Some (c - 65 + 10)
  else if in_range 97 102 c then Some (c - 97 + 10)
  else None.

(** mime/encodedword.go: qDecode *)
Fixpoint q_decode (s : gostring) : option gostring :=
  match s with
  | [] => Some []
  | c :: s1 =>
      if c =? 95 then option_map (cons 32) (q_decode s1)
      else if c =? 61 then
        match s1 with
        | h :: l :: s3 =>
            match from_hex h, from_hex l with
            | Some x, Some y => option_map (cons (x * 16 + y)) (q_decode s3)
            | _, _ => None
            end
        | _ => None
        end
      else if in_range 32 126 c || (c =? 10) || (c =? 13) || (c =? 9)
      then option_map (cons c) (q_decode s1)
      else None
  end.

(** encoding/base64: the decode map of StdEncoding *)
(* /repo: encoded_word.go:14-16 calls mime.WordDecoder.Decode *)
Definition b64_val (c : byte) : option N :=
  if in_range 65 90 c then Some (c - 65)
  else if in_range 97 122 c then Some (c - 97 + 26)
  else if in_range 48 57 c then Some (c - 48 + 52)
  else if c =? 43 then Some 62
  else if c =? 47 then Some 63
  else None.

(** encoding/base64: DecodeString of StdEncoding (padding '=' required; trailing bits are not
    checked).  Simplification: embedded CR and LF, which Go skips, are an error here; the
    grammar of encodedText excludes them. *)
(* /repo: encoded_word.go:14-16 *)
Fixpoint b64_decode (s : gostring) : option gostring :=
  match s with
  | [] => Some []
  | c0 :: c1 :: c2 :: c3 :: s4 =>
      match b64_val c0, b64_val c1 with
      | Some v0, Some v1 =>
          if c2 =? 61 then
            (* "xx==" and nothing after it *)
            if c3 =? 61 then match s4 with [] => Some [v0 * 4 + v1 / 16] | _ => None end
            else None
          else
            match b64_val c2 with
            | None => None
            | Some v2 =>
                if c3 =? 61 then
                  (* "xxx=" and nothing after it *)
                  match s4 with
                  | [] => Some [v0 * 4 + v1 / 16; (v1 mod 16) * 16 + v2 / 4]
                  | _ => None
                  end
                else
                  match b64_val c3 with
                  | None => None
                  | Some v3 =>
                      option_map
                        (fun t => v0 * 4 + v1 / 16 :: (v1 mod 16) * 16 + v2 / 4
                                  :: (v2 mod 4) * 64 + v3 :: t)
                        (b64_decode s4)
                  end
            end
      | _, _ => None
      end
  | _ => None
  end.

(** mime/encodedword.go: decode(encoding byte, text string) *)
Definition decode_content (enc : byte) (text : gostring) : option gostring :=
  if (enc =? 66) || (enc =? 98) then b64_decode text
  else if (enc =? 81) || (enc =? 113) then q_decode text
  else None.

(** The package variable rfc5322.CharsetReader (/repo/parser.go:16): None when nil; otherwise
    charset name and content to converted content, None for an error (from the function or from
    the reader it returns). *)
Definition charset_reader := option (gostring -> gostring -> option gostring).

(** mime/encodedword.go: WordDecoder.convert *)
Definition convert (cr : charset_reader) (charset content : gostring) : option gostring :=
  if equal_fold (bs "utf-8") charset then Some content
  else if equal_fold (bs "iso-8859-1") charset then Some (flat_map encode1 content)
  else if equal_fold (bs "us-ascii") charset then
    Some (flat_map (fun c => if 128 <=? c then encode1 rune_error else [c]) content)
  else match cr with
       | None => None
       | Some f => f (to_lower charset) content
       end.

(** mime/encodedword.go: WordDecoder.Decode; None for an error. *)
Definition word_decode (cr : charset_reader) (word : gostring) : option gostring :=
  if Nat.ltb (length word) 8 || negb (has_prefix (bs "=?") word)
     || negb (has_suffix (bs "?=") word) || negb (Nat.eqb (count_byte 63 word) 4)
  then None
  else
    let word := firstn (length word - 4) (skipn 2 word) in
    match split_at 63 word with
    | None => None
    | Some (charset, rest) =>
        match charset, rest with
        | _ :: _, _ :: enc :: q :: text =>
            if q =? 63 then
              match decode_content enc text with
              | Some content => convert cr charset content
              | None => None
              end
            else None
        | _, _ => None
        end
    end.
