(** A second, independent description of what an address list means: a left-to-right scanner over
    the characters and a few functions on its output.  It does not mention the grammar, the parser
    or the walker.  PropScan.v proves that it agrees with the package on every accepted input that
    meets its side conditions. *)
From Coq Require Import String List NArith Bool.
From Verif Require Import Lexer Utf8 Strs Mime Walker AddrSpec.
Import ListNotations.
Local Open Scope N_scope.

(** * The scanner *)

(** What the scanner reports. *)
Inductive emit : Type :=
| EA (r : rune)            (* an atom character *)
| EG                       (* a white-space character or a whole comment *)
| ES (r : rune)            (* any other character outside comments, quotes and brackets *)
| ESep                     (* a comma or semicolon outside angle brackets *)
| EQ (t : list rune)       (* a quoted string, unquoted *)
| EL (t : list rune).      (* a bracketed literal, verbatim *)

(** Where the scanner is; [ang] says whether an angle bracket is open. *)
Inductive mode : Type :=
| MN (ang : bool)                        (* plain text *)
| MC (ang : bool) (n : nat)              (* in a comment, [n] further ones open *)
| MCE (ang : bool) (n : nat)             (* in a comment, after a backslash *)
| MQ (ang : bool) (acc pend : list rune) (* in a quoted string; [pend] is white space not yet kept *)
| MQE (ang : bool) (acc pend : list rune)(* in a quoted string, after a backslash *)
| ML (ang : bool) (acc : list rune).     (* in a bracketed literal *)

Definition ws (r : rune) : bool := existsb (N.eqb r) [32; 9; 13; 10].

(** the characters whose quoted pairs are dropped: NUL, CR, LF, DEL and the control characters
    other than tab *)
Definition lost (r : rune) : bool := ((r <? 32) && negb (r =? 9)) || (r =? 127).

Definition step (m : mode) (r : rune) : mode * list emit :=
  match m with
  | MN a =>
      if ws r then (MN a, [EG])
      else if r =? 40 (* open parenthesis *) then (MC a 0, [])
      else if r =? 34 (* double quote *) then (MQ a [] [], [])
      else if r =? 91 (* open bracket *) then (ML a [r], [])
      else if r =? 60 (* < *) then (MN true, [ES r])
      else if r =? 62 (* > *) then (MN false, [ES r])
      else if (r =? 44) || (r =? 59) (* , ; *) then (MN a, [if a then ES r else ESep])
      else if atext_char r then (MN a, [EA r])
      else (MN a, [ES r])
  | MC a n =>
      if r =? 40 then (MC a (S n), [])
      else if r =? 41 then match n with O => (MN a, [EG]) | S k => (MC a k, []) end
      else if r =? 92 (* backslash *) then (MCE a n, [])
      else (MC a n, [])
  | MCE a n => (MC a n, [])
  | MQ a acc pend =>
      if r =? 34 then (MN a, [EQ acc])
      else if r =? 92 then (MQE a acc pend, [])
      else if ws r then (MQ a acc (pend ++ [r]), [])
      else (MQ a (acc ++ pend ++ [r]) [], [])
  | MQE a acc pend => (MQ a (acc ++ pend ++ if lost r then [] else [r]) [], [])
  | ML a acc => if r =? 93 (* close bracket *) then (MN a, [EL (acc ++ [r])]) else (ML a (acc ++ [r]), [])
  end.

Fixpoint run (m : mode) (rs : list rune) : mode * list emit :=
  match rs with
  | [] => (m, [])
  | r :: rs' => let '(m1, e1) := step m r in let '(m2, e2) := run m1 rs' in (m2, e1 ++ e2)
  end.

(** * Encoded words *)

Definition token_char (r : rune) : bool :=
  in_range 65 90 r || in_range 97 122 r || in_range 48 57 r || existsb (N.eqb r) (bs "!#$%&'*+-^_`{|}~").

(** atom characters that are ASCII and not a question mark *)
Definition enc_text_char (r : rune) : bool := atext_char r && (r <? 128) && negb (r =? 63).

Definition full (p : rune -> bool) (s : list rune) : bool :=
  match s with [] => false | _ => forallb p s end.

Definition enc_word (c e t : list rune) : list rune := bs "=?" ++ c ++ bs "?" ++ e ++ bs "?" ++ t ++ bs "?=".

(** before and after the first [c] *)
Fixpoint until (c : rune) (s : list rune) : option (list rune * list rune) :=
  match s with
  | [] => None
  | r :: s' => if r =? c then Some ([], s') else option_map (fun '(a, b) => (r :: a, b)) (until c s')
  end.

(** the encoded word =?charset?encoding?text?= a text begins with, and what follows it *)
Definition enc_head (s : list rune) : option (list rune * list rune) :=
  match s with
  | r1 :: r2 :: s1 =>
      if (r1 =? 61) && (r2 =? 63) then
        match until 63 s1 with
        | Some (c, s2) =>
            match until 63 s2 with
            | Some (e, s3) =>
                match until 63 s3 with
                | Some (t, r :: s4) =>
                    if (r =? 61) && full token_char c && full token_char e && full enc_text_char t
                    then Some (enc_word c e t, s4) else None
                | _ => None
                end
            | None => None
            end
        | None => None
        end
      else None
  | _ => None
  end.

(** the encoded words a text begins with, one right after the other, and what follows them *)
Fixpoint enc_leading (n : nat) (s : list rune) : list (list rune) * list rune :=
  match n with
  | O => ([], s)
  | S n' => match enc_head s with
            | Some (w, s') => let '(ws, r) := enc_leading n' s' in (w :: ws, r)
            | None => ([], s)
            end
  end.

Definition enc_split (s : list rune) : list (list rune) * list rune := enc_leading (length s) s.

(** The encoded words, one or more, a run of atom characters consists of, if it does. *)
Definition enc_words (s : list rune) : option (list (list rune)) :=
  match enc_split s with
  | (w :: ws, []) => Some (w :: ws)
  | _ => None
  end.

Definition enc_value (rd : charset_reader) (l : list (list rune)) : gostring :=
  flat_map (fun w => encoded_word_value rd (encode w)) l.

(** contains "=?" *)
Fixpoint intro (s : list rune) : bool :=
  match s with
  | r1 :: s' => match s' with r2 :: _ => ((r1 =? 61) && (r2 =? 63)) || intro s' | [] => false end
  | [] => false
  end.

(** Encoded words may, by the package's grammar, also contain a backslash in charset and encoding and
    any printable ASCII character but the question mark in the text.  [has_enc m x c e t]: such an encoded
    word occurs in [x], scanned from [m] on, outside comments, quotes and brackets. *)
Definition any_token_char (r : rune) : bool := token_char r || (r =? 92).
Definition any_text_char (r : rune) : bool := in_range 33 126 r && negb (r =? 63).

Definition plain_mode (m : mode) : bool := match m with MN _ => true | _ => false end.

Definition has_enc (m : mode) (x c e t : list rune) : Prop := exists a z, x = a ++ enc_word c e t ++ z /\ plain_mode (fst (run m a)) = true /\
  full any_token_char c = true /\ full any_token_char e = true /\ full any_text_char t = true.

(** no encoded words *)
Definition no_enc (x : list rune) : Prop := forall c e t, ~ has_enc (MN false) x c e t.

(** encoded words of atom characters only *)
Definition tame (x : list rune) : Prop := forall c e t, has_enc (MN false) x c e t -> forallb atext_char (enc_word c e t) = true.

(** No two line breaks are separated by blanks only: folded lines are not blank. *)
Definition one_fold (s : list rune) : Prop :=
  forall p x q, s = p ++ [13; 10] ++ x ++ [13; 10] ++ q -> forallb (fun r => (r =? 32) || (r =? 9)) x = false.

(** * Names *)

Definition gap (x : emit) : bool := match x with EG => true | _ => false end.
Definition gaps (l : list emit) : bool := forallb gap l.

(** A name so far: its text, whether the last item was a period or at-sign, and whether it was an
    encoded word. *)
Definition nstate : Type := (gostring * bool * bool)%type.

(** words are joined by one space *)
Definition glue (n : gostring) (u : bool) (v : gostring) : gostring :=
  if u then n ++ v else match n with [] => v | _ => (n ++ bs " ") ++ v end.

(** the end of a run of atom characters: a word, or encoded words and then perhaps a word; encoded
    words are joined to each other *)
Definition flush (rd : charset_reader) (st : nstate) (p : list rune) : nstate :=
  match p with
  | [] => st
  | _ => let '(n, u, pe) := st in
         match enc_split p with
         | ([], _) => (glue n u (encode p), false, false)
         | (l, q) => let n' := if pe then n ++ enc_value rd l else glue n u (enc_value rd l) in
                     match q with [] => (n', false, true) | _ => (glue n' false (encode q), false, false) end
         end
  end.

Definition nitem (st : nstate) (x : emit) : nstate :=
  let '(n, u, pe) := st in
  match x with
  | EQ t => (glue n u (encode t), false, false)
  | ES r => (n ++ encode1 r, true, false)
  | _ => (n, u, pe)
  end.

Fixpoint names (rd : charset_reader) (st : nstate) (p : list rune) (l : list emit) : gostring :=
  match l with
  | [] => fst (fst (flush rd st p))
  | EA r :: l' => names rd st (p ++ [r]) l'
  | x :: l' => names rd (nitem (flush rd st p) x) [] l'
  end.

Definition name_of (rd : charset_reader) (l : list emit) : gostring := names rd ([], false, false) [] l.

(** * Addresses *)

Definition plain (x : emit) : gostring :=
  match x with EA r => encode1 r | ES r => encode1 r | EQ t => encode t | EL t => encode t | _ => [] end.

Definition flat (l : list emit) : gostring := flat_map plain l.

Definition run_value (rd : charset_reader) (p : list rune) : gostring :=
  match enc_words p with Some l => enc_value rd l | None => encode p end.

Fixpoint decoded (rd : charset_reader) (p : list rune) (l : list emit) : gostring :=
  match l with
  | [] => run_value rd p
  | EA r :: l' => decoded rd (p ++ [r]) l'
  | x :: l' => run_value rd p ++ plain x ++ decoded rd [] l'
  end.

Fixpoint drop_gaps (l : list emit) : list emit :=
  match l with EG :: l' => drop_gaps l' | _ => l end.

Definition trim (l : list emit) : list emit := rev (drop_gaps (rev (drop_gaps l))).

Definition dotty (x : emit) : bool := match x with EA _ => true | ES r => r =? 46 | _ => false end.

(** a local part made of atom characters and periods only is kept as it is; in any other local part
    encoded words are decoded *)
Definition local_of (rd : charset_reader) (l : list emit) : gostring :=
  if forallb dotty (trim l) then flat l else decoded rd [] l.

(** before and after the first [ES c] *)
Fixpoint cut (c : rune) (l : list emit) : option (list emit * list emit) :=
  match l with
  | [] => None
  | x :: l' =>
      match x with
      | ES r => if r =? c then Some ([], l') else option_map (fun '(a, b) => (x :: a, b)) (cut c l')
      | _ => option_map (fun '(a, b) => (x :: a, b)) (cut c l')
      end
  end.

Definition spec_of (rd : charset_reader) (l : list emit) : gostring :=
  match cut 64 l with
  | Some (a, b) => local_of rd a ++ bs "@" ++ flat b
  | None => []
  end.

(** what is between angle brackets, without a source route *)
Definition angle_of (rd : charset_reader) (l : list emit) : gostring :=
  match drop_gaps l with
  | ES r :: _ => if (r =? 64) || (r =? 44)
                 then match cut 58 l with Some (_, b) => spec_of rd b | None => [] end
                 else spec_of rd l
  | _ => spec_of rd l
  end.

Definition mailbox_of (rd : charset_reader) (l : list emit) : addr :=
  match cut 60 l with
  | Some (n, m) => mkAddr (name_of rd n) (match cut 62 m with Some (i, _) => angle_of rd i | None => [] end)
  | None => mkAddr [] (spec_of rd l)
  end.

(** * Lists *)

(** digits and then gaps *)
Fixpoint port_like (l : list emit) : bool :=
  match l with EA r :: l' => digit_char r && (gaps l' || port_like l') | _ => false end.

(** without the group name: up to the first colon that is not in angle brackets and not a port's *)
Definition ungroup (l : list emit) : list emit :=
  match cut 58 l with
  | Some (a, b) => match cut 60 a with
                   | Some _ => l
                   | None => if port_like b then l else b
                   end
  | None => l
  end.

Definition element (rd : charset_reader) (l : list emit) : list addr :=
  let l := ungroup l in if gaps l then [] else [mailbox_of rd l].

Fixpoint pieces (l : list emit) : list (list emit) :=
  match l with
  | [] => [[]]
  | x :: l' =>
      match x with
      | ESep => [] :: pieces l'
      | _ => match pieces l' with p :: ps => (x :: p) :: ps | [] => [[x]] end
      end
  end.

Definition elements (rd : charset_reader) (l : list emit) : list addr := flat_map (element rd) (pieces l).

Definition scan (rs : list rune) : list emit := snd (run (MN false) rs).

(** The addresses of a text. *)
Definition addresses_of (rd : charset_reader) (rs : list rune) : list addr := elements rd (scan rs).

(** * Texts with both double quotes and colons

    The grammar lets a double quote stand, unpaired, before a group's name and after its members, so
    a text that contains both double quotes and colons can have readings in which quotes pair up
    differently.  In a [regular] text they cannot: no quoted string holds a colon, an escaped double
    quote, "=?", an unclosed parenthesis or bracket, or ends with a comma or semicolon; no comment or
    bracketed literal holds a double quote; and there is no backslash elsewhere. *)
Definition ends_with (cs : list rune) (s : list rune) : bool :=
  match rev s with r :: _ => existsb (N.eqb r) cs | [] => false end.

(** [q]: the quoted string so far *)
Fixpoint regular_from (m : mode) (q : list rune) (x : list rune) : bool :=
  match x with
  | [] => match m with MN false => true | _ => false end
  | r :: x' =>
      let m' := fst (step m r) in
      match m with
      | MN _ => negb (r =? 92) && regular_from m' [] x'
      | MC _ _ | MCE _ _ | ML _ _ => negb (r =? 34) && regular_from m' [] x'
      | MQ _ _ _ =>
          if r =? 34
          then plain_mode (fst (run (MN false) q)) && negb (ends_with [44; 59] q) && regular_from m' [] x'
          else negb (r =? 58) && negb (intro (q ++ [r])) && regular_from m' (q ++ [r]) x'
      | MQE _ _ _ =>
          negb (r =? 34) && negb (r =? 58) && negb (intro (q ++ [r])) && regular_from m' (q ++ [r]) x'
      end
  end.

Definition regular (x : list rune) : bool := regular_from (MN false) [] x.

(** No quote can be unpaired either where none stands first in the text or after a separator, and
    none last in the text or before a separator or, after white space, before one of these or a comment. *)
Fixpoint after_space (x : list rune) : list rune :=
  match x with
  | r :: x' => if ws r then after_space x' else x
  | [] => []
  end.

Definition at_end (x : list rune) : bool :=
  match after_space x with r :: _ => existsb (N.eqb r) [40; 44; 59] | [] => true end.

Fixpoint loose (start : bool) (x : list rune) : bool :=
  match x with
  | [] => false
  | r :: x' => ((r =? 34) && (start || at_end x')) || loose (existsb (N.eqb r) [44; 59]) x'
  end.

(** double quotes pair up in only one way *)
Definition paired (x : list rune) : Prop := ~ In 34 x \/ ~ In 58 x \/ regular x = true \/ loose true x = false.
