(** The syntax of address lists and date-times in RFC 5322, with the characters RFC 6532 adds,
    transcribed rule by rule; independent of the code, its grammar and its lexer.

    The form names are the obsolete rules of section 4, the addition of RFC 6532, two parts of the
    standard syntax that are named so that theorems can speak about them, and (the names with X) things
    that are not in the standard and that the package documents or accepts.  [on] says which of them
    may be used: with [strict] (none) the rules are those of section 3, with [standard] those of
    sections 3 and 4 and of RFC 6532. *)
From Coq Require Import String List NArith Bool.
From Verif Require Import Lexer Utf8 Strs DateSpec AddrText EncText AcceptText.
Import ListNotations.
Local Open Scope N_scope.
Local Open Scope text_scope.

Inductive form : Type :=
(* section 4.1 *) | O_qp | O_ctext | O_qtext | O_phrase
(* section 4.2 *) | O_FWS
(* section 4.3 *) | O_day_of_week | O_day | O_year | O_hour | O_minute | O_second | O_zone
(* section 4.4 *) | O_angle_addr | O_mbox_list | O_addr_list | O_group_list | O_local_part | O_domain | O_dtext
(* the military zones and the years of three or more digits of section 4.3 *) | O_military | O_long_obs_year
(* RFC 6532: characters U+0080 .. U+FFFF, characters from U+10000 *) | U_characters | U_high_characters
(* section 3.3: years of five or more digits *) | Long_year
(* not in the standard *)
| X_encoded_words    (* RFC 2047 encoded words in place of a word *)
| X_final_period     (* a period after a dot-atom *)
| X_at_in_name       (* at-signs in a name *)
| X_port             (* local@domain:port *)
| X_empty_angle      (* <> *)
| X_group_quote      (* a quote before the name, or after the members, of a group *)
| X_open_group       (* a group without its semicolon *)
| X_semicolon        (* semicolons between addresses *)
| X_short_hour       (* an hour of one digit *)
| X_no_sign          (* a numeric zone without a sign *)
| X_UTC              (* the zone UTC *)
| X_no_zone.         (* a time without a zone *)

(** [1*P], [n*mP] for the [n] and [m] used *)
Definition some (P : texts) : texts := P ;; many P.
Definition two (P : texts) : texts := P ;; P.
Definition four (P : texts) : texts := P ;; P ;; P ;; P.

Section rfc5322.
  Variable on : form -> Prop.

  Definition may (f : form) (P : texts) : texts := fun x => on f /\ P x.

  (** characters: RFC 5234, appendix B.1; RFC 6532, section 3.1 and 3.2 *)
  Definition utf8_non_ascii : texts :=
    may U_characters (one (in_range 128 65535)) <|> may U_high_characters (one (in_range 65536 1114111)).
  Definition DIGIT : texts := one (in_range 48 57).
  Definition ALPHA : texts := one (in_range 65 90) <|> one (in_range 97 122).
  Definition WSP : texts := lit " " <|> (fun x => x = [9]).
  Definition CRLF : texts := fun x => x = [13; 10].
  Definition DQUOTE : texts := lit """".
  Definition VCHAR : texts := one (in_range 33 126) <|> utf8_non_ascii.

  (** 4.1 *)
  Definition obs_NO_WS_CTL : texts :=
    one (in_range 1 8) <|> one (N.eqb 11) <|> one (N.eqb 12) <|> one (in_range 14 31) <|> one (N.eqb 127).

  (** 3.2.1 Quoted characters *)
  Definition obs_qp : texts := lit "\" ;; (one (N.eqb 0) <|> obs_NO_WS_CTL <|> one (N.eqb 10) <|> one (N.eqb 13)).
  Definition quoted_pair : texts := lit "\" ;; (VCHAR <|> WSP) <|> may O_qp obs_qp.

  (** 3.2.2 Folding white space and comments *)
  Definition obs_FWS : texts := some WSP ;; many (CRLF ;; some WSP).
  Definition FWS : texts := optional (many WSP ;; CRLF) ;; some WSP <|> may O_FWS obs_FWS.
  Definition ctext : texts :=
    one (in_range 33 39) <|> one (in_range 42 91) <|> one (in_range 93 126) <|> utf8_non_ascii <|> may O_ctext obs_NO_WS_CTL.

  (** [comment = "(" *([FWS] ccontent) [FWS] ")"] and [ccontent = ctext / quoted-pair / comment] *)
  Inductive rfc_comment : texts :=
  | c_comment : forall x u, ccontents x -> optional FWS u -> rfc_comment (bs "(" ++ x ++ u ++ bs ")")
  with ccontents : texts :=
  | c_none : ccontents []
  | c_more : forall u c x, optional FWS u -> ccontent c -> ccontents x -> ccontents (u ++ c ++ x)
  with ccontent : texts :=
  | c_text : forall x, ctext x -> ccontent x
  | c_pair : forall x, quoted_pair x -> ccontent x
  | c_nested : forall x, rfc_comment x -> ccontent x.

  Definition CFWS : texts := some (optional FWS ;; rfc_comment) ;; optional FWS <|> FWS.

  (** 3.2.3 Atom *)
  Definition atext : texts := ALPHA <|> DIGIT <|> one (fun r => existsb (N.eqb r) (bs "!#$%&'*+-/=?^_`{|}~")) <|> utf8_non_ascii.
  Definition rfc_atom : texts := optional CFWS ;; some atext ;; optional CFWS.
  Definition dot_atom_text : texts := some atext ;; many (lit "." ;; some atext) ;; optional (may X_final_period (lit ".")).
  Definition rfc_dot_atom : texts := optional CFWS ;; dot_atom_text ;; optional CFWS.

  (** 3.2.4 Quoted strings *)
  Definition qtext : texts :=
    one (N.eqb 33) <|> one (in_range 35 91) <|> one (in_range 93 126) <|> utf8_non_ascii <|> may O_qtext obs_NO_WS_CTL.
  Definition qcontent : texts := qtext <|> quoted_pair.
  Definition rfc_quoted_string : texts :=
    optional CFWS ;; DQUOTE ;; many (optional FWS ;; qcontent) ;; optional FWS ;; DQUOTE ;; optional CFWS.

  (** 3.2.5 Miscellaneous tokens *)
  Definition encoded_words : texts := some (optional CFWS ;; full_encoded_word ;; optional CFWS).
  Definition rfc_word : texts := rfc_atom <|> rfc_quoted_string <|> may X_encoded_words encoded_words.
  Definition obs_phrase : texts := rfc_word ;; many (rfc_word <|> lit "." <|> CFWS <|> may X_at_in_name (lit "@")).
  Definition phrase : texts := some rfc_word <|> may O_phrase obs_phrase.

  (** 3.4.1 Addr-spec (rules of 3.4 use it) *)
  Definition obs_local_part : texts := rfc_word ;; many (lit "." ;; rfc_word).
  Definition local_part : texts := rfc_dot_atom <|> rfc_quoted_string <|> may O_local_part obs_local_part.
  Definition obs_dtext : texts := obs_NO_WS_CTL <|> quoted_pair.
  Definition rfc_dtext : texts :=
    one (in_range 33 90) <|> one (in_range 94 126) <|> utf8_non_ascii <|> may O_dtext obs_dtext.
  Definition domain_literal : texts :=
    optional CFWS ;; lit "[" ;; many (optional FWS ;; rfc_dtext) ;; optional FWS ;; lit "]" ;; optional CFWS.
  Definition obs_domain : texts := rfc_atom ;; many (lit "." ;; rfc_atom).
  Definition domain : texts := rfc_dot_atom <|> domain_literal <|> may O_domain obs_domain.
  Definition addr_spec : texts := local_part ;; lit "@" ;; domain ;; optional (may X_port (lit ":" ;; some DIGIT)).

  (** 3.4 Address specification; 4.4 *)
  Definition obs_domain_list : texts :=
    many (CFWS <|> lit ",") ;; lit "@" ;; domain ;; many (lit "," ;; optional CFWS ;; optional (lit "@" ;; domain)).
  Definition obs_route : texts := obs_domain_list ;; lit ":".
  Definition obs_angle_addr : texts := optional CFWS ;; lit "<" ;; obs_route ;; addr_spec ;; lit ">" ;; optional CFWS.
  Definition angle_addr : texts :=
    optional CFWS ;; lit "<" ;; addr_spec ;; lit ">" ;; optional CFWS <|> may O_angle_addr obs_angle_addr <|>
    may X_empty_angle (optional CFWS ;; lit "<" ;; lit ">" ;; optional CFWS).
  Definition display_name : texts := phrase.
  Definition name_addr : texts := optional display_name ;; angle_addr.
  Definition mailbox : texts := name_addr <|> addr_spec.
  Definition obs_mbox_list : texts := many (optional CFWS ;; lit ",") ;; mailbox ;; many (lit "," ;; optional (mailbox <|> CFWS)).
  Definition mailbox_list : texts := mailbox ;; many (lit "," ;; mailbox) <|> may O_mbox_list obs_mbox_list.
  Definition obs_group_list : texts := some (optional CFWS ;; lit ",") ;; optional CFWS.
  Definition group_list : texts := mailbox_list <|> CFWS <|> may O_group_list obs_group_list.
  Definition group : texts :=
    optional (may X_group_quote DQUOTE) ;; display_name ;; lit ":" ;; optional group_list ;;
    optional (may X_group_quote DQUOTE) ;; (lit ";" <|> may X_open_group (lit "")) ;; optional CFWS.
  Definition address : texts := mailbox <|> group.
  Definition obs_addr_list : texts := many (optional CFWS ;; lit ",") ;; address ;; many (lit "," ;; optional (address <|> CFWS)).
  Definition address_list : texts := address ;; many (lit "," ;; address) <|> may O_addr_list obs_addr_list <|>
    may X_semicolon (address ;; many ((lit "," <|> lit ";") ;; address)).

  (** 3.3 Date and time specification; 4.3.  Names are in any letter case (RFC 5234, section 2.3). *)
  Definition rfc_day_name : texts := named [bs "mon"; bs "tue"; bs "wed"; bs "thu"; bs "fri"; bs "sat"; bs "sun"].
  Definition rfc_month : texts :=
    named [bs "jan"; bs "feb"; bs "mar"; bs "apr"; bs "may"; bs "jun"; bs "jul"; bs "aug"; bs "sep"; bs "oct"; bs "nov"; bs "dec"].
  Definition day_of_week : texts := optional FWS ;; rfc_day_name <|> may O_day_of_week (optional CFWS ;; rfc_day_name ;; optional CFWS).
  Definition rfc_day : texts :=
    optional FWS ;; (DIGIT ;; optional DIGIT) ;; FWS <|> may O_day (optional CFWS ;; (DIGIT ;; optional DIGIT) ;; optional CFWS).
  (** [year = (FWS 4*DIGIT FWS) / obs-year] and [obs-year = [CFWS] 2*DIGIT [CFWS]] *)
  Definition rfc_year : texts :=
    FWS ;; four DIGIT ;; FWS <|> may Long_year (FWS ;; four DIGIT ;; some DIGIT ;; FWS) <|>
    may O_year (optional CFWS ;; two DIGIT ;; optional CFWS) <|>
    may O_long_obs_year (optional CFWS ;; two DIGIT ;; some DIGIT ;; optional CFWS).
  Definition rfc_hour : texts := two DIGIT <|> may O_hour (optional CFWS ;; two DIGIT ;; optional CFWS) <|>
    may X_short_hour (optional CFWS ;; DIGIT ;; optional CFWS).
  Definition rfc_minute : texts := two DIGIT <|> may O_minute (optional CFWS ;; two DIGIT ;; optional CFWS).
  Definition rfc_second : texts := two DIGIT <|> may O_second (optional CFWS ;; two DIGIT ;; optional CFWS).
  Definition obs_zone : texts := named [bs "ut"; bs "gmt"; bs "est"; bs "edt"; bs "cst"; bs "cdt"; bs "mst"; bs "mdt"; bs "pst"; bs "pdt"].
  Definition military_zone : texts := one (in_range 65 73) <|> one (in_range 75 90) <|> one (in_range 97 105) <|> one (in_range 107 122).
  Definition rfc_zone : texts :=
    FWS ;; (lit "+" <|> lit "-") ;; four DIGIT <|> may O_zone obs_zone <|> may O_military military_zone <|>
    may X_no_sign (FWS ;; four DIGIT) <|> may X_UTC (named [bs "utc"]) <|> may X_no_zone (lit "").
  Definition time_of_day : texts := rfc_hour ;; lit ":" ;; rfc_minute ;; optional (lit ":" ;; rfc_second).
  Definition rfc_date_time : texts :=
    optional (day_of_week ;; lit ",") ;; (rfc_day ;; rfc_month ;; rfc_year) ;; (time_of_day ;; rfc_zone) ;; optional CFWS.
End rfc5322.

(** the standard syntax without the obsolete forms, and with them *)
Definition strict (_ : form) : Prop := False.
Definition extensions : list form :=
  [X_encoded_words; X_final_period; X_at_in_name; X_port; X_empty_angle; X_group_quote; X_open_group; X_semicolon;
   X_short_hour; X_no_sign; X_UTC; X_no_zone].
Definition standard (f : form) : Prop := ~ In f extensions.

(** of these forms, all but the ones listed *)
Definition but (on : form -> Prop) (l : list form) (f : form) : Prop := on f /\ ~ In f l.
Definition anything (_ : form) : Prop := True.
