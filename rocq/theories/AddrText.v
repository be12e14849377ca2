(** The texts of address lists and what they mean, written on characters; independent of the
    grammar, the parser, the walker and the scanner.  [m] relations pair a text with its meaning.
    [rd] is the package's CharsetReader; [enc] says whether the text may contain encoded words. *)
From Coq Require Import String List NArith Bool.
From Verif Require Import Lexer Utf8 Strs Mime Walker AddrSpec.
Import ListNotations.
Local Open Scope N_scope.

(** * White space and comments *)

Definition blank_char (r : rune) : bool := (r =? 32) || (r =? 9).
Definition blanks (a : list rune) : Prop := Forall (fun r => blank_char r = true) a.

(** Folding white space: blanks, with at most one line break, which blanks must follow. *)
Inductive fold : list rune -> Prop :=
| fold_plain : forall a, a <> [] -> blanks a -> fold a
| fold_line : forall a b, blanks a -> b <> [] -> blanks b -> fold (a ++ [13; 10] ++ b).

Definition optional (P : list rune -> Prop) (x : list rune) : Prop := x = [] \/ P x.

(** control characters other than NUL, tab, CR and LF *)
Definition ctl_char (r : rune) : bool := (in_range 1 31 r || (r =? 127)) && negb (existsb (N.eqb r) [9; 10; 13]).

(** what may stand in a comment: anything but parentheses, backslash, NUL and white space *)
Definition comment_char (r : rune) : bool :=
  (in_range 33 126 r || in_range 128 65535 r || ctl_char r) && negb (existsb (N.eqb r) (bs "()\")).

(** what may follow a backslash: anything *)
Definition pair_char (r : rune) : bool := r <=? 65535.

Inductive comment_body : list rune -> Prop :=
| cb_end : forall u, optional fold u -> comment_body u
| cb_char : forall u r b, optional fold u -> comment_char r = true -> comment_body b -> comment_body (u ++ [r] ++ b)
| cb_pair : forall u r b, optional fold u -> pair_char r = true -> comment_body b -> comment_body (u ++ [92; r] ++ b)
| cb_nested : forall u c b, optional fold u -> comment_body c -> comment_body b -> comment_body (u ++ (bs "(" ++ c ++ bs ")") ++ b).

Definition comment (x : list rune) : Prop := exists b, x = bs "(" ++ b ++ bs ")" /\ comment_body b.

(** one or more comments, with folding white space around them *)
Inductive comments : list rune -> Prop :=
| cs_one : forall u c u', optional fold u -> comment c -> optional fold u' -> comments (u ++ c ++ u')
| cs_more : forall u c x, optional fold u -> comment c -> comments x -> comments (u ++ c ++ x).

(** an optional gap between the parts of an address *)
Definition ogap (x : list rune) : Prop := x = [] \/ fold x \/ comments x.

(** any number of gaps, one after the other: there may be lines of blanks only *)
Inductive long_gap : list rune -> Prop :=
| lg_none : long_gap []
| lg_more : forall g x, ogap g -> long_gap x -> long_gap (g ++ x).

(** * Quoted strings *)

Definition quoted_char (r : rune) : bool :=
  (in_range 33 126 r || in_range 128 65535 r || ctl_char r) && negb (existsb (N.eqb r) [34; 92]).

(** escaped characters that vanish: NUL, CR, LF, DEL and the control characters other than tab *)
Definition vanishes (r : rune) : bool := (r <=? 31) && negb (r =? 9) || (r =? 127).

(** A quoted string without its quotes, and its meaning: white space is kept, except at the end; an
    escaped character stands for itself, but escaped control characters vanish. *)
Inductive quoted_body : list rune -> list rune -> Prop :=
| qb_end : forall u, optional fold u -> quoted_body u []
| qb_char : forall u r b t, optional fold u -> quoted_char r = true -> quoted_body b t -> quoted_body (u ++ [r] ++ b) (u ++ [r] ++ t)
| qb_pair : forall u r b t, optional fold u -> pair_char r = true -> quoted_body b t ->
    quoted_body (u ++ [92; r] ++ b) (u ++ (if vanishes r then [] else [r]) ++ t).

Definition quoted (x t : list rune) : Prop := exists b, x = [34] ++ b ++ [34] /\ quoted_body b t.

(** * Encoded words *)

Definition charset_char (r : rune) : bool :=
  in_range 65 90 r || in_range 97 122 r || in_range 48 57 r || existsb (N.eqb r) (bs "!#$%&'*+-^_`{|}~").

(** ASCII atom characters other than the question mark *)
Definition encoded_char (r : rune) : bool := atext_char r && (r <=? 127) && negb (r =? 63).

Definition nonempty_all (p : rune -> bool) (s : list rune) : Prop := s <> [] /\ Forall (fun r => p r = true) s.

Definition encoded_word (w : list rune) : Prop := exists c e t,
  w = bs "=?" ++ c ++ bs "?" ++ e ++ bs "?" ++ t ++ bs "?=" /\
  nonempty_all charset_char c /\ nonempty_all charset_char e /\ nonempty_all encoded_char t.

(** does not contain "=?" *)
Definition no_intro (x : list rune) : Prop := forall p q, x <> p ++ bs "=?" ++ q.

(** * Display names *)

Inductive item : Type :=
| IAtom (a : list rune)          (* an atom *)
| IEnc (l : list (list rune))    (* encoded words, not separated *)
| IQuoted (q t : list rune)      (* a quoted string and its meaning *)
| IMark (r : rune).              (* a period or at-sign *)

Definition item_text (i : item) : list rune :=
  match i with IAtom a => a | IEnc l => concat l | IQuoted q _ => q | IMark r => [r] end.

Definition is_mark (i : item) : bool := match i with IMark _ => true | _ => false end.

(** items that must not touch *)
Definition is_run (i : item) : bool := match i with IAtom _ | IEnc _ => true | _ => false end.

Definition name_text (l : list (list rune * item)) : list rune := flat_map (fun '(g, i) => g ++ item_text i) l.

Definition address_of (name address : gostring) : addr := mkAddr name address.

Section texts.
  Variables (rd : charset_reader) (enc : bool).

  Definition item_ok (i : item) : Prop :=
    match i with
    | IAtom a => atom a /\ no_intro a
    | IEnc l => enc = true /\ l <> [] /\ Forall encoded_word l
    | IQuoted q t => quoted q t
    | IMark r => r = 46 \/ r = 64
    end.

  (** the meaning of an item *)
  Definition item_value (i : item) : gostring :=
    match i with
    | IAtom a => encode a
    | IEnc l => flat_map (fun w => encoded_word_value rd (encode w)) l
    | IQuoted _ t => encode t
    | IMark r => encode1 r
    end.

  (** a gap inside a name or a source route, which may be long if there are no encoded words *)
  Definition wgap (g : list rune) : Prop := ogap g \/ (enc = false /\ long_gap g).

  (** A name: items, each after an optional gap; atoms and encoded words do not touch. *)
  Fixpoint items_ok (after_run : bool) (l : list (list rune * item)) : Prop :=
    match l with
    | [] => True
    | (g, i) :: l' => wgap g /\ item_ok i /\ (after_run = true -> is_run i = true -> g <> []) /\ items_ok (is_run i) l'
    end.

  Definition name_ok (l : list (list rune * item)) : Prop :=
    match l with (g, i) :: _ => is_mark i = false /\ ogap g | [] => False end /\ items_ok false l.

  (** The meaning: words are separated by one space, but nothing is put around periods and at-signs
      or between encoded words.  [n] is the name so far; [prev] is the item before. *)
  Definition joins (prev : option item) (i : item) : bool :=
    match prev, i with
    | None, _ => true
    | _, IMark _ => true
    | Some (IMark _), _ => true
    | Some (IEnc _), IEnc _ => true
    | _, _ => false
    end.

  Fixpoint name_from (n : gostring) (prev : option item) (l : list (list rune * item)) : gostring :=
    match l with
    | [] => n
    | (_, i) :: l' => name_from (n ++ (if joins prev i then [] else match n with [] => [] | _ => bs " " end) ++ item_value i) (Some i) l'
    end.

  Definition name_value (l : list (list rune * item)) : gostring := name_from [] None l.

  (** * Addresses *)

  (** the words of a local part, separated by periods; gaps are ignored *)
  Inductive words_m : list rune -> gostring -> Prop :=
  | wm_one : forall g i g', ogap g -> item_ok i -> (exists a, i = IAtom a) \/ (exists q t, i = IQuoted q t) -> ogap g' ->
      words_m (g ++ item_text i ++ g') (item_value i)
  | wm_more : forall g i g' x v, ogap g -> item_ok i -> (exists a, i = IAtom a) \/ (exists q t, i = IQuoted q t) -> ogap g' -> words_m x v ->
      words_m (g ++ item_text i ++ g' ++ bs "." ++ x) (item_value i ++ bs "." ++ v).

  (** a local part: words, or a dot-atom (which may end in a period) *)
  Inductive local_m : list rune -> gostring -> Prop :=
  | lm_dot : forall g l g', ogap g -> dot_atom l -> no_intro l -> ogap g' -> local_m (g ++ l ++ g') (encode l)
  | lm_words : forall x v, words_m x v -> local_m x v.

  (** a domain literal: brackets around printable characters and folding white space *)
  Definition dtext (r : rune) : bool := (in_range 33 126 r || in_range 128 65535 r) && negb (existsb (N.eqb r) (bs "[]\")).

  Inductive literal_body : list rune -> Prop :=
  | lb_end : forall u, optional fold u -> literal_body u
  | lb_char : forall u r b, optional fold u -> dtext r = true -> literal_body b -> literal_body (u ++ [r] ++ b).

  Inductive domain_m : list rune -> Prop :=
  | dm_dot : forall d, dot_atom d -> no_intro d -> domain_m d
  | dm_literal : forall b, literal_body b -> domain_m (bs "[" ++ b ++ bs "]").

  (** local@domain or local@domain:port *)
  Inductive spec_m : list rune -> gostring -> Prop :=
  | sm_plain : forall x l g d g', local_m x l -> ogap g -> domain_m d -> ogap g' ->
      spec_m (x ++ bs "@" ++ g ++ d ++ g') (l ++ bs "@" ++ encode d)
  | sm_port : forall x l g d g' p, local_m x l -> ogap g -> domain_m d -> ogap g' ->
      p <> [] -> Forall (fun r => digit_char r = true) p ->
      spec_m (x ++ bs "@" ++ g ++ d ++ g' ++ bs ":" ++ p) (l ++ bs "@" ++ encode (d ++ bs ":" ++ p)).

  (** the end of a source route: empty entries and a colon *)
  Inductive route_end : list rune -> Prop :=
  | re_colon : route_end (bs ":")
  | re_empty : forall g e, ogap g -> route_end e -> route_end (bs "," ++ g ++ e).

  (** a source route: at-signs and domains, separated by commas; there may be empty entries *)
  Inductive route_m : list rune -> Prop :=
  | ro_last : forall g d g' e, ogap g -> domain_m d -> ogap g' -> route_end e -> route_m (bs "@" ++ g ++ d ++ g' ++ e)
  | ro_more : forall g d g' g2 r, ogap g -> domain_m d -> ogap g' -> ogap g2 -> route_m r ->
      route_m (bs "@" ++ g ++ d ++ g' ++ bs "," ++ g2 ++ r)
  | ro_empty : forall g r, ogap g -> route_m r -> route_m (bs "," ++ g ++ r).

  (** empty entries before a source route *)
  Inductive led_route : list rune -> Prop :=
  | le_route : forall r, route_m r -> led_route r
  | le_empty : forall g r, wgap g -> led_route r -> led_route (bs "," ++ g ++ r).

  (** angle brackets and what stands between them *)
  Inductive angle_m : list rune -> gostring -> Prop :=
  | am_spec : forall x a, spec_m x a -> angle_m (bs "<" ++ x ++ bs ">") a
  | am_null : angle_m (bs "<" ++ bs ">") []
  | am_route : forall g r x a, wgap g -> led_route r -> spec_m x a -> angle_m (bs "<" ++ g ++ r ++ x ++ bs ">") a.

  Inductive mailbox_m : list rune -> addr -> Prop :=
  | mm_spec : forall x a, spec_m x a -> mailbox_m x (address_of [] a)
  | mm_angle : forall g x a g', ogap g -> angle_m x a -> ogap g' -> mailbox_m (g ++ x ++ g') (address_of [] a)
  | mm_named : forall l g x a g', name_ok l -> wgap g -> angle_m x a -> ogap g' ->
      mailbox_m (name_text l ++ g ++ x ++ g') (address_of (name_value l) a).

  (** * Lists *)

  (** mailboxes separated by commas or semicolons *)
  Inductive mailboxes_m : list rune -> list addr -> Prop :=
  | ms_one : forall x a, mailbox_m x a -> mailboxes_m x [a]
  | ms_more : forall x a s y l, mailbox_m x a -> s = 44 \/ s = 59 -> mailboxes_m y l -> mailboxes_m (x ++ [s] ++ y) (a :: l).

  (** parts and empty entries separated by commas; the flag says that not all entries are empty *)
  Inductive sparse (P : list rune -> list addr -> Prop) : bool -> list rune -> list addr -> Prop :=
  | sp_one : forall x l, P x l -> sparse P true x l
  | sp_none : forall x, ogap x -> sparse P false x []
  | sp_more : forall x l b y l', P x l -> sparse P b y l' -> sparse P true (x ++ bs "," ++ y) (l ++ l')
  | sp_skip : forall x b y l', ogap x -> sparse P b y l' -> sparse P b (x ++ bs "," ++ y) l'.

  Definition one_mailbox (x : list rune) (l : list addr) : Prop := exists a, mailbox_m x a /\ l = [a].

  (** a group: its name, a colon, its members, and possibly a semicolon *)
  Inductive group_m : list rune -> list addr -> Prop :=
  | gm : forall n g b y l s g', name_ok n -> wgap g -> sparse one_mailbox b y l -> s = [] \/ s = bs ";" -> ogap g' -> (s = [] -> g' = []) ->
      group_m (name_text n ++ g ++ bs ":" ++ y ++ s ++ g') l.

  Definition address_m (x : list rune) (l : list addr) : Prop := one_mailbox x l \/ group_m x l.

  (** mailboxes and groups separated by commas or semicolons *)
  Inductive addresses_m : list rune -> list addr -> Prop :=
  | as_one : forall x l, address_m x l -> addresses_m x l
  | as_more : forall x l s y l', address_m x l -> s = 44 \/ s = 59 -> addresses_m y l' -> addresses_m (x ++ [s] ++ y) (l ++ l').

End texts.
