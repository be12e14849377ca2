(** Address lists whose names contain encoded words with any printable character: the texts and what
    they mean, written on characters; independent of the grammar, the parser, the walker and the
    scanner.  The parts that AddrText.v already has (gaps, quoted strings, atoms, the meaning of a
    name) are taken from there. *)
From Coq Require Import String List NArith Bool.
From Verif Require Import Lexer Utf8 Strs Mime Walker AddrSpec AddrText.
Import ListNotations.
Local Open Scope N_scope.

(** printable ASCII characters other than the question mark *)
Definition enc_char (r : rune) : bool := in_range 33 126 r && negb (r =? 63).

(** the characters of a charset or encoding: as in AddrText.v, and backslash *)
Definition enc_token_char (r : rune) : bool := charset_char r || (r =? 92).

(** =?charset?encoding?text?= *)
Definition full_encoded_word (w : list rune) : Prop := exists c e t,
  w = bs "=?" ++ c ++ bs "?" ++ e ++ bs "?" ++ t ++ bs "?=" /\
  nonempty_all enc_token_char c /\ nonempty_all enc_token_char e /\ nonempty_all enc_char t.

Definition full_item (i : item) : Prop :=
  match i with
  | IAtom a => atom a /\ no_intro a
  | IEnc l => l <> [] /\ Forall full_encoded_word l
  | IQuoted q t => quoted q t
  | IMark _ => False
  end.

(** A name: atoms, quoted strings and encoded words, each after an optional gap; atoms and encoded
    words do not touch. *)
Fixpoint full_items (after_run : bool) (l : list (list rune * item)) : Prop :=
  match l with
  | [] => True
  | (g, i) :: l' => ogap g /\ full_item i /\ (after_run = true -> is_run i = true -> g <> []) /\ full_items (is_run i) l'
  end.

Definition full_name (l : list (list rune * item)) : Prop := l <> [] /\ full_items false l.

(** a local part without gaps: a dot-atom or a quoted string *)
Inductive tight_local : list rune -> gostring -> Prop :=
| tl_dot : forall l, dot_atom l -> no_intro l -> tight_local l (encode l)
| tl_quoted : forall q t, quoted q t -> tight_local q (encode t).

(** local@domain without gaps *)
Inductive tight_spec : list rune -> gostring -> Prop :=
| ts : forall x l d, tight_local x l -> domain_m d -> tight_spec (x ++ bs "@" ++ d) (l ++ bs "@" ++ encode d).

(** local@domain:port without gaps *)
Inductive ported_spec : list rune -> gostring -> Prop :=
| ps : forall x l d p, tight_local x l -> domain_m d -> nonempty_all digit_char p ->
    ported_spec (x ++ bs "@" ++ d ++ bs ":" ++ p) (l ++ bs "@" ++ encode (d ++ bs ":" ++ p)).

Definition tight_address (x : list rune) (a : gostring) : Prop := tight_spec x a \/ ported_spec x a.

Section boxes.
  Variable rd : charset_reader.

  Inductive full_mailbox : list rune -> addr -> Prop :=
  | fm_spec : forall g x a g', ogap g -> tight_spec x a -> ogap g' -> full_mailbox (g ++ x ++ g') (address_of [] a)
  | fm_port : forall g x a, ogap g -> ported_spec x a -> full_mailbox (g ++ x) (address_of [] a)
  | fm_angle : forall g x a g', ogap g -> tight_address x a -> ogap g' -> full_mailbox (g ++ bs "<" ++ x ++ bs ">" ++ g') (address_of [] a)
  | fm_named : forall l g x a g', full_name l -> ogap g -> tight_address x a -> ogap g' ->
      full_mailbox (name_text l ++ g ++ bs "<" ++ x ++ bs ">" ++ g') (address_of (name_value rd l) a).

  (** mailboxes separated by commas or semicolons *)
  Inductive full_list : list rune -> list addr -> Prop :=
  | fl_one : forall x a, full_mailbox x a -> full_list x [a]
  | fl_more : forall x a s y l, full_mailbox x a -> s = 44 \/ s = 59 -> full_list y l -> full_list (x ++ [s] ++ y) (a :: l).
End boxes.
