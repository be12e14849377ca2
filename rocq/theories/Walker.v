(** The listener that turns a parse tree into a result: /repo/walker.go and the one file per
    node type.  A walk keeps a stack of nodes under construction; entering a rule pushes a
    node, leaving it pops the node, checks its type and hands it to the node below if that one
    has the matching with... method.  A Go run-time panic (empty stack, failed type assertion,
    slice bounds) is [None]. *)
From Coq Require Import String List NArith ZArith Bool.
From Verif Require Import Lexer Grammar Utf8 Strs Mime GoTime Parser.
Import ListNotations.

(** net/mail.Address *)
(* /repo: net/mail; address.go:14-17, mailbox_list.go:14-17, obs_mbox_list.go:14-17 *)
Record addr : Type := mkAddr { a_name : gostring; a_address : gostring }.

(** A Go slice of addresses: nil, or a (possibly empty) list.  Only Go's append is applied. *)
(* /repo: parser.go:19-21 and :38; address_list.go:10 *)
Definition slice := option (list addr).
(* /repo: specification helper: the elements of what parser.go:38 returns *)
Definition elems (s : slice) : list addr := match s with None => [] | Some l => l end.
(* /repo: address.go:14 and :21, address_list.go:14, group.go:14, group_list.go:14, mailbox_list.go:14 and :21, obs_mbox_list.go:14 *)
Definition append (s : slice) (xs : list addr) : slice :=
  match s, xs with
  | None, [] => None
  | _, _ => Some (elems s ++ xs)
  end.

(** The node types.  One constructor per Go struct, fields in declaration order. *)
(* /repo: the struct types of the files *.go of /repo, one each *)
Inductive node : Type :=
| NAddress (addresses : slice)                         (* address.go:9-11 *)
| NAddressList (addresses : slice)                     (* address_list.go:9-11 *)
| NAddrSpec (localPart domain : gostring)              (* addr_spec.go:7-9 *)
| NAngleAddr (address : gostring)                      (* angle_addr.go:9-11 *)
| NAtom (value : gostring)                             (* atom.go:7-9 *)
| NDateTime (day month year hour min sec : Z) (loc : location) (* date_time.go:9-17 *)
| NDay (value : Z)                                     (* day.go:9-11 *)
| NDisplayName (value : gostring) (unspaced : bool)    (* display_name.go:7-10 *)
| NDomain (value : gostring)                           (* domain.go:9-11 *)
| NDomainLiteral (value : gostring)                    (* domain_literal.go:7-9 *)
| NDotAtom (value : gostring)                          (* dot_atom.go:7-9 *)
| NEncodedWord (value : gostring)                      (* encoded_word.go:9-11 *)
| NFws (value : gostring)                              (* fws.go:7-9 *)
| NGroup (addresses : slice)                           (* group.go:9-11 *)
| NGroupList (addresses : slice)                       (* group_list.go:9-11 *)
| NHour (value : Z)                                    (* hour.go:9-11 *)
| NLocalPart (value : gostring)                        (* local_part.go:9-11 *)
| NMailbox (name address : gostring)                   (* mailbox.go:9-11 *)
| NMailboxList (addresses : slice)                     (* mailbox_list.go:9-11 *)
| NMinute (value : Z)                                  (* minute.go:9-11 *)
| NMonth (value : Z)                                   (* month.go:11-13 *)
| NNameAddr (name address : gostring)                  (* name_addr.go:7-9 *)
| NObsAngleAddr (address : gostring)                   (* obs_angle_addr.go:11-13 *)
| NObsDomain (atoms : list gostring)                   (* obs_domain.go:7-9 *)
| NObsLocalPart (words : list gostring)                (* obs_local_part.go:7-9 *)
| NObsMboxList (addresses : slice)                     (* obs_mbox_list.go:9-11 *)
| NObsZone (loc : location)                            (* obs_zone.go:11-13 *)
| NOffset (rep : gostring) (value : Z)                 (* offset.go:11-14 *)
| NPort (value : gostring)                             (* port.go:7-9 *)
| NQtext (value : gostring)                            (* qtext.go:7-9 *)
| NQuotedChar (value : gostring)                       (* quoted_char.go:7-9 *)
| NQuotedContent (value : gostring)                    (* quoted_content.go:7-9 *)
| NQuotedPair (value : gostring)                       (* quoted_pair.go:7-9 *)
| NQuotedString (value : gostring)                     (* quoted_string.go:7-9 *)
| NQuotedValue (value : gostring)                      (* quoted_value.go:7-9 *)
| NSecond (value : Z)                                  (* second.go:9-11 *)
| NUnspaced (value : gostring)                         (* unspaced.go:7-9 *)
| NWord (value : gostring)                             (* word.go:7-9 *)
| NYear (value : Z)                                    (* year.go:10-12 *)
| NZone (loc : location)                               (* zone.go:9-11 *).

(** Errors that can end up in walker.err. *)
(* /repo: walker.go:43-45, day.go:22, offset.go:32 and the like *)
Inductive error : Type :=
| ESyntax      (* walker.go:43-45 *)
| EAtoi        (* day.go:21, hour.go:21, minute.go:21, second.go:21, year.go:22 *)
| EMonth       (* month.go:44 *)
| EZone        (* obs_zone.go:42 *)
| EDuration.   (* offset.go:31-33 *)

(** walker.res *)
(* /repo: walker.go:23; parser.go:38 and :61 *)
Inductive wres : Type :=
| ResNil
| ResList (s : slice)
| ResTime (t : time).

(** walker.go:13-26; the top of the stack is the head of [nodes]. *)
Record wstate : Type := mkW { nodes : list node; res : wres; err : option error }.

(** What the walk reads besides the tree: time.Now().Year() (year.go:28) and the package
    variable CharsetReader (encoded_word.go:14). *)
Record wenv : Type := mkWenv { now_year : Z; reader : charset_reader }.

(** antlr: TerminalNode.GetText; the EOF token prints as "<EOF>". *)
(* /repo: atom.go:13 and the other calls of GetText *)
Definition tok_text (t : tok) : gostring :=
  if N.eqb (tt t) T_EOF then bs "<EOF>" else encode1 (tr t).

(** antlr: ParserRuleContext.GetText, concatenation over the leaves. *)
(* /repo: atom.go:13, dot_atom.go:13, encoded_word.go:16, month.go:18, offset.go:17 and the like *)
Definition get_text (ch : list tree) : gostring := flat_map tok_text (yields ch).

(** ctx.AllDigit(): the direct children that are Digit tokens; day.go:16-18 and its copies in
    hour.go, minute.go, second.go and year.go concatenate their texts. *)
Definition digits_text (ch : list tree) : gostring :=
  flat_map (fun c => match c with
                     | Leaf t => if N.eqb (tt t) T_Digit then tok_text t else []
                     | Node _ _ => []
                     end) ch.

(** "val, err := strconv.Atoi(text); if err != nil { w.err = err }": value and error. *)
(* /repo: day.go:20-24, hour.go:20-24, minute.go:20-24, second.go:20-24, year.go:21-25 *)
Definition int_field (text : gostring) : Z * option error :=
  match atoi text with
  | Some v => (v, None)
  | None => (0%Z, Some EAtoi)
  end.

(** month.go:15-50 *)
Definition month_value (text : gostring) : Z * option error :=
  let t := to_lower text in
  if eqb_str t (bs "jan") then (1%Z, None)
  else if eqb_str t (bs "feb") then (2%Z, None)
  else if eqb_str t (bs "mar") then (3%Z, None)
  else if eqb_str t (bs "apr") then (4%Z, None)
  else if eqb_str t (bs "may") then (5%Z, None)
  else if eqb_str t (bs "jun") then (6%Z, None)
  else if eqb_str t (bs "jul") then (7%Z, None)
  else if eqb_str t (bs "aug") then (8%Z, None)
  else if eqb_str t (bs "sep") then (9%Z, None)
  else if eqb_str t (bs "oct") then (10%Z, None)
  else if eqb_str t (bs "nov") then (11%Z, None)
  else if eqb_str t (bs "dec") then (12%Z, None)
  else (0%Z, Some EMonth).

(** obs_zone.go:15-48 *)
Definition zone_value (text : gostring) : location * option error :=
  let t := to_lower text in
  if eqb_str t (bs "ut") then (Fixed text 0, None)
  else if eqb_str t (bs "utc") then (Fixed text 0, None)
  else if eqb_str t (bs "gmt") then (Fixed text 0, None)
  else if eqb_str t (bs "est") then (Fixed text (-5*60*60), None)
  else if eqb_str t (bs "edt") then (Fixed text (-4*60*60), None)
  else if eqb_str t (bs "cst") then (Fixed text (-6*60*60), None)
  else if eqb_str t (bs "cdt") then (Fixed text (-5*60*60), None)
  else if eqb_str t (bs "mst") then (Fixed text (-7*60*60), None)
  else if eqb_str t (bs "mdt") then (Fixed text (-6*60*60), None)
  else if eqb_str t (bs "pst") then (Fixed text (-8*60*60), None)
  else if eqb_str t (bs "pdt") then (Fixed text (-7*60*60), None)
  else (UTC, Some EZone).

(** year.go:14-38 *)
Definition year_value (now : Z) (text : gostring) : Z * option error :=
  let '(v, e) := int_field text in
  ((if Nat.eqb (length text) 2
    then if (Z.rem now 100 <? v)%Z then v + 1900 else v + 2000
    else v)%Z, e).

(** text[i:j]; None when out of range (a Go panic) *)
(* /repo: offset.go:26-28 *)
Definition slice_str (i j : nat) (s : gostring) : option gostring :=
  if Nat.leb i j && Nat.leb j (length s) then Some (firstn (j - i) (skipn i s)) else None.

(** offset.go:16-39; None is the slice-bounds panic *)
Definition offset_value (text : gostring) : option (gostring * Z * option error) :=
  let text := if has_prefix (bs "+") text || has_prefix (bs "-") text
              then text else bs "+" ++ text in
  match slice_str 0 1 text, slice_str 1 3 text, slice_str 3 5 text with
  | Some sgn, Some hrs, Some min =>
      match parse_duration (sgn ++ hrs ++ bs "h" ++ min ++ bs "m") with
      | Some d => Some (text, duration_seconds d, None)
      | None => Some (text, 0%Z, Some EDuration)
      end
  | _, _, _ => None
  end.

(** encoded_word.go:13-24 *)
Definition encoded_word_value (cr : charset_reader) (text : gostring) : gostring :=
  match word_decode cr text with
  | Some s => s
  | None => text
  end.

(** The Enter... methods: the node pushed when rule [r] with children [ch] is entered and the
    error recorded, if any.  Outer None: Go panic.  Inner None: BaseRFC5322ParserListener's empty
    method is inherited, nothing is pushed. *)
Definition enter_node (e : wenv) (r : rule) (ch : list tree)
  : option (option (node * option error)) :=
  let push n := Some (Some (n, None)) in
  let pusht (n : gostring -> node) := Some (Some (n (get_text ch), None)) in
  let pushz (n : Z -> node) (v : Z * option error) := Some (Some (n (fst v), snd v)) in
  match r with
  | R_address => push (NAddress None)                        (* address.go:24-26 *)
  | R_addressList => push (NAddressList None)                (* address_list.go:17-19 *)
  | R_addrSpec => push (NAddrSpec [] [])                     (* addr_spec.go:23-25 *)
  | R_angleAddr => push (NAngleAddr [])                      (* angle_addr.go:21-23 *)
  | R_atom => pusht NAtom                                    (* atom.go:11-15 *)
  | R_dateTime => push (NDateTime 0 0 0 0 0 0 UTC)           (* date_time.go:47-51 *)
  | R_day => pushz NDay (int_field (digits_text ch))         (* day.go:13-28 *)
  | R_displayName => push (NDisplayName [] false)            (* display_name.go:27-29 *)
  | R_domain => push (NDomain [])                            (* domain.go:25-27 *)
  | R_domainLiteral => pusht NDomainLiteral                  (* domain_literal.go:11-15 *)
  | R_dotAtom => pusht NDotAtom                              (* dot_atom.go:11-15 *)
  | R_encodedWord => push (NEncodedWord (encoded_word_value (reader e) (get_text ch)))
                                                             (* encoded_word.go:13-24 *)
  | R_fws => pusht NFws                                      (* fws.go:11-15 *)
  | R_group => push (NGroup None)                            (* group.go:17-19 *)
  | R_groupList => push (NGroupList None)                    (* group_list.go:17-19 *)
  | R_hour => pushz NHour (int_field (digits_text ch))       (* hour.go:13-28 *)
  | R_localPart => push (NLocalPart [])                      (* local_part.go:25-27 *)
  | R_mailbox => push (NMailbox [] [])                       (* mailbox.go:22-24 *)
  | R_mailboxList => push (NMailboxList None)                (* mailbox_list.go:24-26 *)
  | R_minute => pushz NMinute (int_field (digits_text ch))   (* minute.go:13-28 *)
  | R_month => pushz NMonth (month_value (get_text ch))      (* month.go:15-50 *)
  | R_nameAddr => push (NNameAddr [] [])                     (* name_addr.go:19-21 *)
  | R_obsAngleAddr => push (NObsAngleAddr [])                (* obs_angle_addr.go:19-21 *)
  | R_obsDomain => push (NObsDomain [])                      (* obs_domain.go:15-17 *)
  | R_obsLocalPart => push (NObsLocalPart [])                (* obs_local_part.go:15-17 *)
  | R_obsMboxList => push (NObsMboxList None)                (* obs_mbox_list.go:20-22 *)
  | R_obsZone =>                                             (* obs_zone.go:15-48 *)
      let v := zone_value (get_text ch) in Some (Some (NObsZone (fst v), snd v))
  | R_offset =>                                              (* offset.go:16-39 *)
      match offset_value (get_text ch) with
      | Some (rep, v, er) => Some (Some (NOffset rep v, er))
      | None => None
      end
  | R_port => pusht NPort                                    (* port.go:11-15 *)
  | R_qtext => pusht NQtext                                  (* qtext.go:11-15 *)
  | R_quotedChar => pusht NQuotedChar                        (* quoted_char.go:11-15 *)
  | R_quotedContent => push (NQuotedContent [])              (* quoted_content.go:19-21 *)
  | R_quotedPair => push (NQuotedPair [])                    (* quoted_pair.go:15-17 *)
  | R_quotedString => push (NQuotedString [])                (* quoted_string.go:15-17 *)
  | R_quotedValue => push (NQuotedValue [])                  (* quoted_value.go:19-21 *)
  | R_second => pushz NSecond (int_field (digits_text ch))   (* second.go:13-28 *)
  | R_unspaced => pusht NUnspaced                            (* unspaced.go:11-15 *)
  | R_word => push (NWord [])                                (* word.go:23-25 *)
  | R_year => pushz NYear (year_value (now_year e) (digits_text ch)) (* year.go:14-38 *)
  | R_zone => push (NZone UTC)                               (* zone.go:21-25 *)
  | _ => Some None
  end.

(** The type asserted when rule [r] is left: w.exit() asserted to the pointer type. *)
(* /repo: the Exit methods, e.g. addr_spec.go:30-31 *)
Definition node_of_rule (r : rule) (n : node) : bool :=
  match r, n with
  | R_address, NAddress _ | R_addressList, NAddressList _ | R_addrSpec, NAddrSpec _ _
  | R_angleAddr, NAngleAddr _ | R_atom, NAtom _ | R_dateTime, NDateTime _ _ _ _ _ _ _
  | R_day, NDay _ | R_displayName, NDisplayName _ _ | R_domain, NDomain _
  | R_domainLiteral, NDomainLiteral _ | R_dotAtom, NDotAtom _ | R_encodedWord, NEncodedWord _
  | R_fws, NFws _ | R_group, NGroup _ | R_groupList, NGroupList _ | R_hour, NHour _
  | R_localPart, NLocalPart _ | R_mailbox, NMailbox _ _ | R_mailboxList, NMailboxList _
  | R_minute, NMinute _ | R_month, NMonth _ | R_nameAddr, NNameAddr _ _
  | R_obsAngleAddr, NObsAngleAddr _ | R_obsDomain, NObsDomain _
  | R_obsLocalPart, NObsLocalPart _ | R_obsMboxList, NObsMboxList _ | R_obsZone, NObsZone _
  | R_offset, NOffset _ _ | R_port, NPort _ | R_qtext, NQtext _ | R_quotedChar, NQuotedChar _
  | R_quotedContent, NQuotedContent _ | R_quotedPair, NQuotedPair _
  | R_quotedString, NQuotedString _ | R_quotedValue, NQuotedValue _ | R_second, NSecond _
  | R_unspaced, NUnspaced _ | R_word, NWord _ | R_year, NYear _ | R_zone, NZone _ => true
  | _, _ => false
  end.

(** fmt.Sprintf("%v@%v", l, d) *)
(* /repo: angle_addr.go:14, mailbox.go:19, obs_angle_addr.go:16 *)
Definition at_join (l d : gostring) : gostring := l ++ bs "@" ++ d.

(** "if parent, ok := w.parent().(withX); ok { parent.withX(res) }" at the end of every Exit...
    method: [give p c] is the parent node after it was offered the finished child [c]. *)
(* /repo: the interfaces withX of /repo, e.g. addr_spec.go:30-37 *)
Definition give (p c : node) : node :=
  match c, p with
  (* mailbox.go:32-35 *)
  | NMailbox n a, NAddress l => NAddress (append l [mkAddr n a])          (* address.go:13-18 *)
  | NMailbox n a, NMailboxList l => NMailboxList (append l [mkAddr n a])  (* mailbox_list.go:13-18 *)
  | NMailbox n a, NObsMboxList l => NObsMboxList (append l [mkAddr n a])  (* obs_mbox_list.go:13-18 *)
  | NGroup g, NAddress l => NAddress (append l (elems g))                 (* address.go:20-22 *)
  | NAddress a, NAddressList l => NAddressList (append l (elems a))       (* address_list.go:13-15 *)
  | NLocalPart v, NAddrSpec _ d => NAddrSpec v d                          (* addr_spec.go:11-13 *)
  | NDomain v, NAddrSpec l _ => NAddrSpec l v                             (* addr_spec.go:15-17 *)
  | NPort v, NAddrSpec l d => NAddrSpec l (d ++ bs ":" ++ v)              (* addr_spec.go:19-21 *)
  | NAddrSpec l d, NAngleAddr _ => NAngleAddr (at_join l d)               (* angle_addr.go:13-15 *)
  | NObsAngleAddr a, NAngleAddr _ => NAngleAddr a                         (* angle_addr.go:17-19 *)
  | NDay v, NDateTime _ mo y h mi s l => NDateTime v mo y h mi s l        (* date_time.go:19-21 *)
  | NMonth v, NDateTime d _ y h mi s l => NDateTime d v y h mi s l        (* date_time.go:23-25 *)
  | NYear v, NDateTime d mo _ h mi s l => NDateTime d mo v h mi s l       (* date_time.go:27-29 *)
  | NHour v, NDateTime d mo y _ mi s l => NDateTime d mo y v mi s l       (* date_time.go:31-33 *)
  | NMinute v, NDateTime d mo y h _ s l => NDateTime d mo y h v s l       (* date_time.go:35-37 *)
  | NSecond v, NDateTime d mo y h mi _ l => NDateTime d mo y h mi v l     (* date_time.go:39-41 *)
  | NZone v, NDateTime d mo y h mi s _ => NDateTime d mo y h mi s v       (* date_time.go:43-45 *)
  | NWord v, NDisplayName n u =>                                          (* display_name.go:12-20 *)
      if u then NDisplayName (n ++ v) false
      else match n with
           | [] => NDisplayName v false
           | _ => NDisplayName ((n ++ bs " ") ++ v) false
           end
  | NUnspaced v, NDisplayName n _ => NDisplayName (n ++ v) true           (* display_name.go:22-25 *)
  | NDotAtom v, NDomain _ => NDomain v                                    (* domain.go:13-15 *)
  | NDomainLiteral v, NDomain _ => NDomain v                              (* domain.go:17-19 *)
  | NObsDomain l, NDomain _ => NDomain (join (bs ".") l)                  (* domain.go:21-23 *)
  | NGroupList g, NGroup l => NGroup (append l (elems g))                 (* group.go:13-15 *)
  | NMailboxList g, NGroupList l => NGroupList (append l (elems g))       (* group_list.go:13-15 *)
  | NDotAtom v, NLocalPart _ => NLocalPart v                              (* local_part.go:13-15 *)
  | NQuotedString v, NLocalPart _ => NLocalPart v                         (* local_part.go:17-19 *)
  | NObsLocalPart l, NLocalPart _ => NLocalPart (join (bs ".") l)         (* local_part.go:21-23 *)
  | NNameAddr n a, NMailbox _ _ => NMailbox n a                           (* mailbox.go:13-16 *)
  | NAddrSpec l d, NMailbox n _ => NMailbox n (at_join l d)               (* mailbox.go:18-20 *)
  | NObsMboxList g, NMailboxList l => NMailboxList (append l (elems g))   (* mailbox_list.go:20-22 *)
  | NDisplayName v _, NNameAddr _ a => NNameAddr v a                      (* name_addr.go:11-13 *)
  | NAngleAddr a, NNameAddr n _ => NNameAddr n a                          (* name_addr.go:15-17 *)
  | NAddrSpec l d, NObsAngleAddr _ => NObsAngleAddr (at_join l d)         (* obs_angle_addr.go:15-17 *)
  | NAtom v, NObsDomain l => NObsDomain (l ++ [v])                        (* obs_domain.go:11-13 *)
  | NWord v, NObsLocalPart l => NObsLocalPart (l ++ [v])                  (* obs_local_part.go:11-13 *)
  | NQtext v, NQuotedContent _ => NQuotedContent v                        (* quoted_content.go:11-13 *)
  | NQuotedPair v, NQuotedContent _ => NQuotedContent v                   (* quoted_content.go:15-17 *)
  | NQuotedChar v, NQuotedPair _ => NQuotedPair v                         (* quoted_pair.go:11-13 *)
  | NQuotedValue v, NQuotedString _ => NQuotedString v                    (* quoted_string.go:11-13 *)
  | NFws v, NQuotedValue s => NQuotedValue (s ++ v)                       (* quoted_value.go:11-13 *)
  | NQuotedContent v, NQuotedValue s => NQuotedValue (s ++ v)             (* quoted_value.go:15-17 *)
  | NAtom v, NWord _ => NWord v                                           (* word.go:11-13 *)
  | NQuotedString v, NWord _ => NWord v                                   (* word.go:15-17 *)
  | NEncodedWord v, NWord s => NWord (s ++ v)                             (* word.go:19-21 *)
  | NOffset rep v, NZone _ => NZone (Fixed rep v)                         (* zone.go:13-15 *)
  | NObsZone l, NZone _ => NZone l                                        (* zone.go:17-19 *)
  | _, _ => p
  end.

(** Does the listener override Enter/Exit for this rule? *)
(* /repo: which Enter and Exit methods *walker has in /repo *)
Definition handled (r : rule) : bool :=
  match r with
  | R_address | R_addressList | R_addrSpec | R_angleAddr | R_atom | R_dateTime | R_day
  | R_displayName | R_domain | R_domainLiteral | R_dotAtom | R_encodedWord | R_fws | R_group
  | R_groupList | R_hour | R_localPart | R_mailbox | R_mailboxList | R_minute | R_month
  | R_nameAddr | R_obsAngleAddr | R_obsDomain | R_obsLocalPart | R_obsMboxList | R_obsZone
  | R_offset | R_port | R_qtext | R_quotedChar | R_quotedContent | R_quotedPair
  | R_quotedString | R_quotedValue | R_second | R_unspaced | R_word | R_year | R_zone => true
  | _ => false
  end.

(** w.enter (walker.go:28-30), with the assignment to w.err of the Enter... methods *)
Definition do_enter (e : wenv) (r : rule) (ch : list tree) (st : wstate) : option wstate :=
  match enter_node e r ch with
  | None => None
  | Some None => Some st
  | Some (Some (n, er)) =>
      Some (mkW (n :: nodes st) (res st) (match er with Some x => Some x | None => err st end))
  end.

(** The Exit... methods, with w.exit and w.parent (walker.go:32-41). *)
Definition do_exit (r : rule) (st : wstate) : option wstate :=
  if handled r then
    match nodes st with
    | [] => None                                  (* w.nodes[len(w.nodes)-1] panics *)
    | n :: rest =>
        if node_of_rule r n then
          match r, n with
          | R_addressList, NAddressList l =>      (* address_list.go:21-23 *)
              Some (mkW rest (ResList l) (err st))
          | R_dateTime, NDateTime d mo y h mi s l => (* date_time.go:53-57 *)
              Some (mkW rest (ResTime (go_date y mo d h mi s l)) (err st))
          | _, _ =>
              match rest with
              | [] => None                        (* w.parent() panics *)
              | p :: rest' => Some (mkW (give p n :: rest') (res st) (err st))
              end
          end
        else None                                 (* failed type assertion *)
    end
  else Some st.

(** antlr.ParseTreeWalkerDefault.Walk (called at parser.go:37 and :60); VisitTerminal is the
    empty method of BaseRFC5322ParserListener. *)
Fixpoint walk (e : wenv) (t : tree) (st : wstate) : option wstate :=
  match t with
  | Leaf _ => Some st
  | Node r ch =>
      match do_enter e r ch st with
      | None => None
      | Some st1 =>
          match (fix walks (f : list tree) (st : wstate) : option wstate :=
                   match f with
                   | [] => Some st
                   | t :: f' => match walk e t st with
                                | Some st' => walks f' st'
                                | None => None
                                end
                   end) ch st1 with
          | None => None
          | Some st2 => do_exit r st2
          end
      end
  end.

(** &walker{} *)
(* /repo: parser.go:26 and :49 *)
Definition init_w : wstate := mkW [] ResNil None.
