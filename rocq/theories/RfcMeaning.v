(** What an address list of RFC 5322 means, following the rules of Rfc5322.v; independent of the code.

    Comments and folding white space around words mean nothing, or the single space between two words of
    a name (section 3.2.2); the meaning of a quoted string is its text without the quotes and the
    backslashes, and with unfolded lines (sections 2.2.3, 3.2.1, 3.2.4); routes are ignored (section 4.4).
    For names written as obs-phrase (with periods) the standard gives no meaning.

    The meanings the package gives differ at a few places; these are named, and [at_] says which of them a
    text may have. *)
From Coq Require Import String List NArith Bool.
From Verif Require Import Lexer Utf8 Strs DateSpec AddrSpec AddrText AcceptText Rfc5322.
Import ListNotations.
Local Open Scope N_scope.

Inductive place : Type :=
| Line_in_quotes         (* a folded line inside a quoted string *)
| Blank_before_quote     (* white space before the closing quote *)
| Escaped_control        (* an escaped control character in a quoted string *)
| Empty_first_word       (* a name of several words, the first of which is "" *)
| Line_in_literal.       (* a folded line inside a domain literal *)

(** Section 2.2.3: unfolding removes the line breaks. *)
Definition unfolded (x : list rune) : list rune := filter (fun r => negb ((r =? 13) || (r =? 10))) x.

(** the words with single spaces between them *)
Definition spaced (l : list (list rune)) : list rune := join (bs " ") l.

Record box : Type := mkBox { b_name : list rune; b_local : list rune; b_domain : list rune }.

Section meaning.
  Variables (on : form -> Prop) (at_ : place -> Prop).

  Definition rgap : texts := optional (CFWS on).
  Definition ofws : texts := optional (FWS on).

  (** white space inside a quoted string or literal *)
  Definition inner (p : place) (u : list rune) : Prop := ofws u /\ (In 13 u -> at_ p).

  (** [*([FWS] qcontent) [FWS]] *)
  Inductive quoted_means : list rune -> list rune -> Prop :=
  | qm_end : forall u, inner Line_in_quotes u -> (u <> [] -> at_ Blank_before_quote) -> quoted_means u (unfolded u)
  | qm_text : forall u c b v, inner Line_in_quotes u -> qtext on c -> quoted_means b v ->
      quoted_means (u ++ c ++ b) (unfolded u ++ c ++ v)
  | qm_pair : forall u c b v, inner Line_in_quotes u -> quoted_pair on (bs "\" ++ c) -> (obs_qp (bs "\" ++ c) -> at_ Escaped_control) -> quoted_means b v ->
      quoted_means (u ++ (bs "\" ++ c) ++ b) (unfolded u ++ c ++ v).

  Inductive quoted_string_means : list rune -> list rune -> Prop :=
  | qs_means : forall g b v g', rgap g -> quoted_means b v -> rgap g' -> quoted_string_means (g ++ (bs """" ++ b ++ bs """") ++ g') v.

  Inductive atom_means : list rune -> list rune -> Prop :=
  | at_means : forall g a g', rgap g -> some (atext on) a -> rgap g' -> atom_means (g ++ a ++ g') a.

  Definition word_means (x v : list rune) : Prop := atom_means x v \/ quoted_string_means x v.

  (** an atom is as long as possible: it does not touch another one *)
  Definition untouched (x y : list rune) : Prop := forall p a b q, x = p ++ a -> y = b ++ q -> atext on a -> ~ atext on b.

  (** the words of a name *)
  Inductive phrase_means : list rune -> list (list rune) -> Prop :=
  | ph_one : forall x v, word_means x v -> phrase_means x [v]
  | ph_more : forall x v y l, word_means x v -> phrase_means y l -> untouched x y -> phrase_means (x ++ y) (v :: l).

  (** words separated by periods *)
  Inductive dotted_means (W : list rune -> list rune -> Prop) : list rune -> list rune -> Prop :=
  | dm_one : forall x v, W x v -> dotted_means W x v
  | dm_more : forall x v y w, W x v -> dotted_means W y w -> dotted_means W (x ++ bs "." ++ y) (v ++ bs "." ++ w).

  Inductive dot_atom_means : list rune -> list rune -> Prop :=
  | da_means : forall g a g', rgap g -> dot_atom_text on a -> rgap g' -> dot_atom_means (g ++ a ++ g') a.

  Inductive local_means : list rune -> list rune -> Prop :=
  | lo_dot : forall x v, dot_atom_means x v -> local_means x v
  | lo_quoted : forall x v, quoted_string_means x v -> local_means x v
  | lo_obs : forall x v, on O_local_part -> dotted_means word_means x v -> local_means x v.

  (** [*([FWS] dtext) [FWS]] *)
  Inductive literal_means : list rune -> list rune -> Prop :=
  | li_end : forall u, inner Line_in_literal u -> literal_means u (unfolded u)
  | li_text : forall u c b v, inner Line_in_literal u -> rfc_dtext on c -> literal_means b v -> literal_means (u ++ c ++ b) (unfolded u ++ c ++ v).

  Inductive domain_means : list rune -> list rune -> Prop :=
  | do_dot : forall x v, dot_atom_means x v -> domain_means x v
  | do_literal : forall g b v g', rgap g -> literal_means b v -> rgap g' -> domain_means (g ++ (bs "[" ++ b ++ bs "]") ++ g') (bs "[" ++ v ++ bs "]")
  | do_obs : forall x v, on O_domain -> dotted_means atom_means x v -> domain_means x v.

  Inductive spec_means : list rune -> list rune -> list rune -> Prop :=
  | sp_means : forall x l y d, local_means x l -> domain_means y d -> spec_means (x ++ bs "@" ++ y) l d.

  Inductive angle_means : list rune -> list rune -> list rune -> Prop :=
  | an_means : forall g x l d g', rgap g -> spec_means x l d -> rgap g' -> angle_means (g ++ (bs "<" ++ x ++ bs ">") ++ g') l d
  | an_route : forall g r x l d g', on O_angle_addr -> rgap g -> obs_route on r -> spec_means x l d -> rgap g' ->
      angle_means (g ++ (bs "<" ++ r ++ x ++ bs ">") ++ g') l d.

  Inductive mailbox_means : list rune -> box -> Prop :=
  | mb_spec : forall x l d, spec_means x l d -> mailbox_means x (mkBox [] l d)
  | mb_angle : forall x l d, angle_means x l d -> mailbox_means x (mkBox [] l d)
  | mb_named : forall x n y l d, phrase_means x n -> (forall w n', n = [] :: w :: n' -> at_ Empty_first_word) -> angle_means y l d -> mailbox_means (x ++ y) (mkBox (spaced n) l d).

  (** entries separated by commas; empty entries are allowed if the obsolete form [f] is; the flag says
      that there is an entry that is not empty *)
  Inductive entries_mean (f : form) (P : list rune -> list box -> Prop) : bool -> list rune -> list box -> Prop :=
  | en_one : forall x l, P x l -> entries_mean f P true x l
  | en_more : forall x l b y l', P x l -> entries_mean f P b y l' -> entries_mean f P true (x ++ bs "," ++ y) (l ++ l')
  | en_empty : forall x, on f -> rgap x -> entries_mean f P false x []
  | en_skip : forall x b y l, on f -> rgap x -> entries_mean f P b y l -> entries_mean f P b (x ++ bs "," ++ y) l.

  Definition one_box (x : list rune) (l : list box) : Prop := exists m, mailbox_means x m /\ l = [m].

  Definition mailbox_list_means : list rune -> list box -> Prop := entries_mean O_mbox_list one_box true.

  Inductive group_list_means : list rune -> list box -> Prop :=
  | gl_boxes : forall x l, mailbox_list_means x l -> group_list_means x l
  | gl_none : forall x, rgap x -> group_list_means x []
  | gl_obs : forall x, entries_mean O_group_list one_box false x [] -> group_list_means x [].

  Inductive group_means : list rune -> list box -> Prop :=
  | gr_means : forall x n y l g, phrase_means x n -> group_list_means y l -> rgap g -> group_means (x ++ bs ":" ++ y ++ bs ";" ++ g) l.

  Definition address_means (x : list rune) (l : list box) : Prop := one_box x l \/ group_means x l.

  Definition address_list_means : list rune -> list box -> Prop := entries_mean O_addr_list address_means true.
End meaning.

(** the address a caller gets for a mailbox *)
Definition box_address (b : box) : Walker.addr :=
  Walker.mkAddr (encode (b_name b)) (encode (b_local b ++ bs "@" ++ b_domain b)).

Definition nowhere (_ : place) : Prop := False.
Definition anywhere (_ : place) : Prop := True.
