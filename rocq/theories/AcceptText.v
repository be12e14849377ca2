(** Which texts are accepted, written on characters; independent of the grammar, the lexer, the parser
    and the walker.  White space, comments, quoted strings, atoms and encoded words are those of
    AddrText.v, AddrSpec.v and EncText.v, the names in dates those of DateSpec.v. *)
From Coq Require Import String List NArith Bool.
From Verif Require Import Lexer Utf8 Strs DateSpec AddrSpec AddrText EncText.
Import ListNotations.
Local Open Scope N_scope.

(** * Sets of texts *)

Definition texts : Type := list rune -> Prop.

Declare Scope text_scope.
Delimit Scope text_scope with text.
Local Open Scope text_scope.

(** a text of [P], then a text of [Q] *)
Definition cat (P Q : texts) : texts := fun x => exists u v, x = u ++ v /\ P u /\ Q v.
(** a text of [P] or a text of [Q] *)
Definition either (P Q : texts) : texts := fun x => P x \/ Q x.
(** any number of texts of [P], one after the other *)
Inductive many (P : texts) : texts :=
| many_none : many P []
| many_more : forall u v, P u -> many P v -> many P (u ++ v).
(** one character of a class *)
Definition one (p : rune -> bool) : texts := fun x => exists r, x = [r] /\ p r = true.
(** exactly this text *)
Definition lit (s : string) : texts := fun x => x = bs s.
(** one of these names, in upper or lower case *)
Definition named (names : list (list rune)) : texts := fun x => In (to_lower x) names.

Notation "P ;; Q" := (cat P Q) (at level 61, right associativity) : text_scope.
Notation "P <|> Q" := (either P Q) (at level 62, right associativity) : text_scope.

(** * Dates *)

Definition digit : texts := one digit_char.

(** "[Fri,] 21 Nov 1997 09:55[:06] [-0600]"; white space is needed around a year of four digits and
    before a numeric zone, and comments are allowed elsewhere *)
Definition date_texts : texts :=
  optional (ogap ;; named day_names ;; ogap ;; lit ",") ;;
  (ogap ;; digit ;; optional digit ;; ogap) ;;
  named month_names ;;
  (fold ;; digit ;; digit ;; digit ;; digit ;; fold <|> ogap ;; digit ;; digit ;; ogap) ;;
  (ogap ;; optional digit ;; digit ;; ogap) ;;
  lit ":" ;; (ogap ;; digit ;; digit ;; ogap) ;;
  optional (lit ":" ;; ogap ;; digit ;; digit ;; ogap) ;;
  optional (fold ;; optional (lit "+" <|> lit "-") ;; digit ;; digit ;; digit ;; digit <|> named (map fst zone_names)) ;;
  ogap.

(** * Addresses *)

Definition quoted_string : texts := fun x => exists t, quoted x t.

(** an atom, a quoted string, or one or more encoded words *)
Definition word_texts : texts :=
  ogap ;; atom ;; ogap <|> ogap ;; quoted_string ;; ogap <|>
  (ogap ;; full_encoded_word ;; ogap) ;; many (ogap ;; full_encoded_word ;; ogap).

(** a display name: words, white space, comments, periods and at-signs in any order, but the first
    thing after the first gap is a word *)
Definition name_start : texts := one atext_char <|> quoted_string <|> full_encoded_word.
Definition name_texts : texts :=
  ogap ;; name_start ;; many (name_start <|> lit "." <|> lit "@" <|> fold <|> comment).

(** the local part: a dot-atom, or words separated by periods *)
Definition local_texts : texts :=
  ogap ;; dot_atom ;; ogap <|> word_texts ;; many (lit "." ;; word_texts).

Definition domain_texts : texts :=
  ogap ;; (dot_atom <|> lit "[" ;; literal_body ;; lit "]") ;; ogap.

Definition spec_texts : texts :=
  local_texts ;; lit "@" ;; domain_texts ;; optional (lit ":" ;; digit ;; many digit).

(** a source route *)
Definition route_texts : texts :=
  many (fold <|> comment <|> lit ",") ;; lit "@" ;; domain_texts ;;
  many (lit "," ;; ogap ;; optional (lit "@" ;; domain_texts)) ;; lit ":".

Definition angle_texts : texts :=
  ogap ;; lit "<" ;; (optional spec_texts <|> route_texts ;; spec_texts) ;; lit ">" ;; ogap.

Definition mailbox_texts : texts := optional name_texts ;; angle_texts <|> spec_texts.

(** a group; its members are separated by commas, and there may be empty ones *)
Definition group_texts : texts :=
  optional (lit """") ;; name_texts ;; lit ":" ;;
  (mailbox_texts <|> ogap) ;; many (lit "," ;; (mailbox_texts <|> ogap)) ;;
  optional (lit """") ;; optional (lit ";") ;; ogap.

Definition one_address : texts := mailbox_texts <|> group_texts.

(** addresses separated by commas or semicolons, or addresses and empty entries separated by commas *)
Definition address_list_texts : texts :=
  one_address ;; many ((lit "," <|> lit ";") ;; one_address) <|>
  many (ogap ;; lit ",") ;; one_address ;; many (lit "," ;; (one_address <|> ogap)).
