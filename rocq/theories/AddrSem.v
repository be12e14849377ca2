(** What the walker computes on address lists, as relations between token strings and values: the
    selected tree has the value the relations give.  Most of it holds of every tree; where the
    grammar is ambiguous the relations also record what the choice of the first viable alternative
    implies. *)
From Coq Require Import String List NArith ZArith Bool Arith Lia.
From Verif Require Import Lexer Grammar Utf8 Strs Mime GoTime Parser Walker Spec ParserFacts WalkerFacts
  Static Total Cfws LangFacts Chosen.
Import ListNotations.

Definition text (w : word) : gostring := flat_map tok_text w.

Lemma text_app u v : text (u ++ v) = text u ++ text v.
Proof. apply flat_map_app. Qed.

Lemma get_text_yields ch : get_text ch = text (yields ch).
Proof. reflexivity. Qed.

Definition opt_cfws (u : word) : Prop := lang (Opt (Nt R_cfws)) u.
Definition opt_fws (u : word) : Prop := lang (Opt (Nt R_fws)) u.

(** Quoted strings *)
Definition obs_qp : list ttype := T_U_00 :: types R_obsNoWSCTL ++ [T_LF; T_CR].

Inductive r_qcontent : word -> gostring -> Prop :=
| qc_text : forall t, In (tt t) (types R_qtext) -> r_qcontent [t] (tok_text t)
| qc_pair : forall b t, tt b = T_Backslash -> In (tt t) (types R_quotedChar) -> r_qcontent [b; t] (tok_text t)
| qc_obs : forall b t, tt b = T_Backslash -> In (tt t) obs_qp -> r_qcontent [b; t] [].

Inductive r_qvalue : word -> gostring -> Prop :=
| qv_nil : r_qvalue [] []
| qv_cons : forall u c w v1 v2, opt_fws u -> r_qcontent c v1 -> r_qvalue w v2 ->
    r_qvalue (u ++ c ++ w) (text u ++ v1 ++ v2).

Definition r_qstring (w : word) (v : gostring) : Prop :=
  exists q1 m u q2, w = q1 :: m ++ u ++ [q2] /\ tt q1 = T_DQuote /\ tt q2 = T_DQuote /\
    r_qvalue m v /\ opt_fws u.

(** Words *)
Inductive r_encs (rd : charset_reader) : word -> gostring -> Prop :=
| re_one : forall u e u', opt_cfws u -> lang (Nt R_encodedWord) e -> opt_cfws u' ->
    r_encs rd (u ++ e ++ u') (encoded_word_value rd (text e))
| re_more : forall u e u' w v, opt_cfws u -> lang (Nt R_encodedWord) e -> opt_cfws u' -> r_encs rd w v ->
    r_encs rd (u ++ e ++ u' ++ w) (encoded_word_value rd (text e) ++ v).

(** How a word was read; for an atom, whether comments or white space precede and follow it. *)
Inductive wkind : Type := KEnc | KAtom (before after : bool) | KQuo.

Definition nonempty (u : word) : bool := match u with [] => false | _ => true end.

Definition g_encs : gexp := Plus (seqs [Opt (Nt R_cfws); Nt R_encodedWord; Opt (Nt R_cfws)]).

Inductive r_word (rd : charset_reader) : wkind -> word -> gostring -> Prop :=
| rw_enc : forall w v, r_encs rd w v -> r_word rd KEnc w v
| rw_atom : forall u a u', opt_cfws u -> lang (Nt R_atom) a -> opt_cfws u' -> ~ lang g_encs (u ++ a ++ u') ->
    r_word rd (KAtom (nonempty u) (nonempty u')) (u ++ a ++ u') (text a)
| rw_quoted : forall u q u' v, opt_cfws u -> r_qstring q v -> opt_cfws u' -> r_word rd KQuo (u ++ q ++ u') v.

(** Display names: words, unspaced characters ('.' and '@'), comments *)
Inductive ditem : Type := DWord (k : wkind) (v : gostring) | DUnspaced (v : gostring) | DSkip.

Inductive r_ditem (rd : charset_reader) : word -> ditem -> Prop :=
| rd_word : forall k w v, r_word rd k w v -> r_ditem rd w (DWord k v)
| rd_unspaced : forall t, In (tt t) [T_Period; T_At] -> r_ditem rd [t] (DUnspaced (tok_text t))
| rd_skip : forall w, lang (Nt R_cfws) w -> r_ditem rd w DSkip.

(** After an encoded word no encoded word follows that could have been joined to it; [pre] is what
    lies between. *)
Fixpoint enc_gap (pre : word) (ws : list word) (l : list ditem) : Prop :=
  match ws, l with
  | w :: ws', DSkip :: l' => enc_gap (pre ++ w) ws' l'
  | w :: _, DWord KEnc _ :: _ => ~ lang g_encs (pre ++ w)
  | _, _ => True
  end.

(** [w] does not begin with an encoded word that a preceding atom could have taken in. *)
Definition no_join (w : word) : Prop := forall e u r, w = e ++ u ++ r -> lang (Nt R_atom) e -> opt_cfws u -> r = [] \/ lang g_encs r -> False.

(** What may follow a word: an atom is not cut in two, and encoded words that can be read as one
    word are. *)
Definition follows (k : wkind) (ws : list word) (l : list ditem) : Prop :=
  match k with
  | KEnc => enc_gap [] ws l
  | KAtom _ false => match l with
                     | DWord (KAtom false _) _ :: _ => False
                     | DWord KEnc _ :: _ => match ws with w :: _ => no_join w | [] => True end
                     | _ => True
                     end
  | _ => True
  end.

(** An atom that is a word of a name does not begin with an encoded word. *)
Definition unenc (k : wkind) (w : word) (v : gostring) : Prop :=
  match k with
  | KAtom b b' => exists u a u', w = u ++ a ++ u' /\ b = nonempty u /\ b' = nonempty u' /\ v = text a /\
      opt_cfws u /\ lang (Nt R_atom) a /\ opt_cfws u' /\ forall e r, a = e ++ r -> ~ lang (Nt R_encodedWord) e
  | _ => True
  end.

Fixpoint apart (ws : list word) (l : list ditem) : Prop :=
  match ws, l with
  | w :: ws', DWord k v :: l' => follows k ws' l' /\ unenc k w v /\ apart ws' l'
  | _ :: ws', _ :: l' => apart ws' l'
  | _, _ => True
  end.

(** display_name.go:12-25 *)
Fixpoint dname (n : gostring) (u : bool) (l : list ditem) : gostring :=
  match l with
  | [] => n
  | DWord _ v :: l' => dname (if u then n ++ v else match n with [] => v | _ => (n ++ bs " ") ++ v end) false l'
  | DUnspaced v :: l' => dname (n ++ v) true l'
  | DSkip :: l' => dname n u l'
  end.

Definition r_display (rd : charset_reader) (w : word) (v : gostring) : Prop :=
  exists k1 w1 v1 ws l, w = w1 ++ concat ws /\ r_word rd k1 w1 v1 /\ Forall2 (r_ditem rd) ws l /\
    apart (w1 :: ws) (DWord k1 v1 :: l) /\ v = dname [] false (DWord k1 v1 :: l).

(** Local parts and domains *)
Inductive r_obslocal (rd : charset_reader) : word -> list gostring -> Prop :=
| ol_one : forall k w v, r_word rd k w v -> r_obslocal rd w [v]
| ol_more : forall k w v p w' l, r_word rd k w v -> tt p = T_Period -> r_obslocal rd w' l ->
    r_obslocal rd (w ++ p :: w') (v :: l).

Inductive r_local (rd : charset_reader) : word -> gostring -> Prop :=
| rl_dot : forall u a u', opt_cfws u -> lang (Nt R_dotAtom) a -> opt_cfws u' -> r_local rd (u ++ a ++ u') (text a)
| rl_quoted : forall u q u' v, opt_cfws u -> r_qstring q v -> opt_cfws u' -> r_local rd (u ++ q ++ u') v
| rl_obs : forall w l, r_obslocal rd w l -> ~ lang (seqs [Opt (Nt R_cfws); Nt R_dotAtom; Opt (Nt R_cfws)]) w -> r_local rd w (join (bs ".") l).

Inductive r_domain : word -> gostring -> Prop :=
| rdm : forall u m u', opt_cfws u ->
    lang (Nt R_dotAtom) m \/ lang (Nt R_domainLiteral) m \/ lang (Nt R_obsDomain) m ->
    opt_cfws u' -> r_domain (u ++ m ++ u') (text m).

Inductive r_addrspec (rd : charset_reader) : word -> gostring -> Prop :=
| ras : forall wl l a wd d, r_local rd wl l -> tt a = T_At -> r_domain wd d ->
    r_addrspec rd (wl ++ a :: wd) (at_join l d)
| ras_port : forall wl l a wd d c p, r_local rd wl l -> tt a = T_At -> r_domain wd d ->
    tt c = T_Colon -> lang (Nt R_port) p ->
    r_addrspec rd (wl ++ a :: wd ++ c :: p) (at_join l (d ++ bs ":" ++ text p)).

(** Mailboxes *)
Inductive r_angle (rd : charset_reader) : word -> gostring -> Prop :=
| ra_some : forall u lt s a gt u', opt_cfws u -> tt lt = T_Less -> r_addrspec rd s a -> tt gt = T_Greater ->
    opt_cfws u' -> r_angle rd (u ++ lt :: s ++ gt :: u') a
| ra_none : forall u lt gt u', opt_cfws u -> tt lt = T_Less -> tt gt = T_Greater -> opt_cfws u' ->
    r_angle rd (u ++ lt :: gt :: u') []
| ra_route : forall u lt r s a gt u', opt_cfws u -> tt lt = T_Less -> lang (Nt R_obsRoute) r -> r_addrspec rd s a ->
    tt gt = T_Greater -> opt_cfws u' -> r_angle rd (u ++ lt :: r ++ s ++ gt :: u') a.

Inductive r_mailbox (rd : charset_reader) : word -> addr -> Prop :=
| rm_name : forall wn n wa a, r_display rd wn n -> r_angle rd wa a -> r_mailbox rd (wn ++ wa) (mkAddr n a)
| rm_angle : forall wa a, r_angle rd wa a -> r_mailbox rd wa (mkAddr [] a)
| rm_spec : forall w a, r_addrspec rd w a -> r_mailbox rd w (mkAddr [] a).

(** Lists: an element, then elements, white space or nothing, each after a separator *)
Inductive r_tail (P : word -> list addr -> Prop) (seps : list ttype) : word -> list addr -> Prop :=
| rt_nil : r_tail P seps [] []
| rt_item : forall k x l w l', In (tt k) seps -> P x l -> r_tail P seps w l' -> r_tail P seps (k :: x ++ w) (l ++ l')
| rt_skip : forall k x w l', In (tt k) seps -> opt_cfws x -> r_tail P seps w l' -> r_tail P seps (k :: x ++ w) l'.

Definition junk (j : word) : Prop := lang (Star (seqs [Opt (Nt R_cfws); Tok T_Comma])) j.

Definition r_list (P : word -> list addr -> Prop) (seps : list ttype) (w : word) (l : list addr) : Prop :=
  exists j x l1 t l2, w = j ++ x ++ t /\ junk j /\ P x l1 /\ r_tail P seps t l2 /\ l = l1 ++ l2.

Definition r_mbox1 (rd : charset_reader) (w : word) (l : list addr) : Prop := exists a, r_mailbox rd w a /\ l = [a].

Definition r_mboxes (rd : charset_reader) : word -> list addr -> Prop := r_list (r_mbox1 rd) [T_Comma].

Inductive r_grouplist (rd : charset_reader) : word -> list addr -> Prop :=
| gl_none : r_grouplist rd [] []
| gl_list : forall w l, r_mboxes rd w l -> r_grouplist rd w l
| gl_cfws : forall w, lang (Nt R_cfws) w -> r_grouplist rd w []
| gl_obs : forall w, lang (Nt R_obsGroupList) w -> r_grouplist rd w [].

Definition opt_tok (T : ttype) (w : word) : Prop := w = [] \/ exists t, w = [t] /\ tt t = T.

Definition r_group (rd : charset_reader) (w : word) (l : list addr) : Prop :=
  exists q1 wn n c wl q2 sc u, w = q1 ++ wn ++ c :: wl ++ q2 ++ sc ++ u /\
    opt_tok T_DQuote q1 /\ r_display rd wn n /\ tt c = T_Colon /\ r_grouplist rd wl l /\
    opt_tok T_DQuote q2 /\ opt_tok T_Semicolon sc /\ opt_cfws u.

Inductive r_address (rd : charset_reader) : word -> list addr -> Prop :=
| rad_mbox : forall w a, r_mailbox rd w a -> r_address rd w [a]
| rad_group : forall w l, r_group rd w l -> ~ lang (Nt R_mailbox) w -> r_address rd w l.

(** * Every derivation has the value its relation gives *)

Lemma feeds_node e p r ch n er : enter_node e r ch = Some (Some (n, er)) ->
  feeds e p [Node r ch] = give p (feeds e n ch).
Proof. intros H. unfold feeds. cbn [fold_left feed]. now rewrite H. Qed.

Lemma feeds_one e p t : feeds e p [t] = feed e p t.
Proof. reflexivity. Qed.

(** Rules whose node keeps the text it was created with. *)
Lemma yields_star_nodes fs : yields (concat fs) = concat (map yields fs).
Proof. apply yields_concat. Qed.

Lemma opt_cfws_i f : derives (Opt (Nt R_cfws)) f -> opt_cfws (yields f).
Proof. intros H. exists f. auto. Qed.

Lemma opt_fws_i f : derives (Opt (Nt R_fws)) f -> opt_fws (yields f).
Proof. intros H. exists f. auto. Qed.

Lemma lang_body r f : derives (body r) f -> lang (Nt r) (yields f).
Proof. intros H. apply lang_nt. exists f. auto. Qed.

Ltac quietly D := match type of D with derives ?g ?f =>
  rewrite (feeds_quiet _ _ g f) by (first [exact D | reflexivity | (split; [|split]; reflexivity)]) end.

(** ** Quoted strings *)
Lemma den_qcontent e ch : derives (body R_quotedContent) ch ->
  exists v, feeds e (NQuotedContent []) ch = NQuotedContent v /\ r_qcontent (yields ch) v.
Proof.
  intros H. dinv H.
  - destruct (single_body R_qtext _ eq_refl H) as [t [E Ht]]. exists (tok_text t). split.
    + rewrite feeds_one. cbn [feed enter_node]. change (fold_left (feed e) ch0) with (fun n => feeds e n ch0). cbv beta.
      rewrite feeds_closed by (intros n; destruct n; reflexivity). cbn [give]. rewrite get_text_yields, E. cbn. now rewrite app_nil_r.
    + rewrite yields_node, E. now constructor.
  - rewrite yields_node. dinv H.
    + destruct H0 as [H0|[]]. destruct (single_body R_quotedChar _ eq_refl H1) as [t2 [E2 Ht2]].
      exists (tok_text t2). split.
      * rewrite feeds_one. cbn [feed enter_node app fold_left].
        change (fold_left (feed e) ch) with (fun n => feeds e n ch). cbv beta.
        rewrite feeds_closed by (intros n; destruct n; reflexivity). cbn [give]. rewrite get_text_yields, E2. cbn. now rewrite app_nil_r.
      * rewrite yields_app, yields_node, E2. cbn. now apply qc_pair.
    + exists []. split.
      * rewrite feeds_one. cbn [feed enter_node fold_left].
        replace (fold_left (feed e) ch (NQuotedPair [])) with (NQuotedPair []); [reflexivity|].
        symmetry. apply (feeds_inert e (NQuotedPair []) ch (fun r => mem_rule r (reach R_obsQP))).
        { intros r n Hr Hn. destruct r; vm_compute in Hr; try discriminate Hr; destruct n; discriminate Hn. }
        eapply derives_rules; [|exact H|]; vm_compute; reflexivity.
      * rewrite yields_node. dinv H.
        -- destruct H0 as [H0|[]]. cbn. apply qc_obs; [auto|]. destruct H1 as [H1|[]]. rewrite <- H1. left. reflexivity.
        -- destruct H0 as [H0|[]]. destruct (single_body R_obsNoWSCTL _ eq_refl H1) as [t2 [E2 Ht2]].
           rewrite yields_app, yields_node, E2. cbn. apply qc_obs; [auto|]. right. apply in_app_iff. now left.
        -- destruct H0 as [H0|[]]. cbn. apply qc_obs; [auto|]. destruct H1 as [H1|[]]. rewrite <- H1. right. apply in_app_iff. right. now left.
        -- destruct H0 as [H0|[]]. cbn. apply qc_obs; [auto|]. destruct H1 as [H1|[]]. rewrite <- H1. right. apply in_app_iff. right. right. now left.
Qed.

Lemma feed_closed_node e p r ch n er : enter_node e r ch = Some (Some (n, er)) -> (forall c, give n c = n) ->
  feed e p (Node r ch) = give p n.
Proof. intros H Hn. cbn [feed]. rewrite H. f_equal. now apply feeds_closed. Qed.

Lemma feed_fws e p ch : feed e p (Node R_fws ch) = give p (NFws (text (yields ch))).
Proof. eapply feed_closed_node; [reflexivity|]. intros n; destruct n; reflexivity. Qed.

Lemma den_qvalue e ch : derives (body R_quotedValue) ch -> forall s,
  exists v, feeds e (NQuotedValue s) ch = NQuotedValue (s ++ v) /\ r_qvalue (yields ch) v.
Proof.
  intros H. change (body R_quotedValue) with g_quotedValue in H. unfold g_quotedValue in H.
  apply derives_star in H as [fs [-> Hfs]].
  induction Hfs as [|f fs Hf Hfs IH]; intros s.
  - exists []. split; [cbn; now rewrite app_nil_r | constructor].
  - cbn [concat]. cbn [seqs] in Hf. apply derives_seq in Hf as [f1 [f2 [-> [D1 D2]]]].
    apply derives_nt in D2 as [ch [-> D2]]. destruct (den_qcontent e ch D2) as [v1 [F1 R1]].
    assert (HF : feeds e (NQuotedValue s) f1 = NQuotedValue (s ++ text (yields f1))).
    { apply derives_opt in D1 as [D1| ->].
      - apply derives_nt in D1 as [ch1 [-> D1]]. rewrite feeds_one, feed_fws, yields_node. reflexivity.
      - cbn. now rewrite app_nil_r. }
    specialize (IH ((s ++ text (yields f1)) ++ v1)). destruct IH as [v2 [F2 R2]].
    exists (text (yields f1) ++ v1 ++ v2). split.
    + rewrite !feeds_app, HF. rewrite (feeds_node e _ R_quotedContent ch (NQuotedContent []) None) by reflexivity.
      rewrite F1. cbn [give]. rewrite F2. now rewrite <- !app_assoc.
    + rewrite yields_app, yields_app, yields_node, <- app_assoc. constructor; auto. exists f1. auto.
Qed.

Lemma den_qstring e ch : derives (body R_quotedString) ch ->
  exists v, feeds e (NQuotedString []) ch = NQuotedString v /\ r_qstring (yields ch) v.
Proof.
  intros H. change (body R_quotedString) with g_quotedString in H. unfold g_quotedString in H. cbn [seqs] in H.
  apply derives_seq in H as [f1 [f2 [-> [D1 H]]]]. apply derives_seq in H as [f3 [f4 [-> [D3 H]]]].
  apply derives_seq in H as [f5 [f6 [-> [D5 D6]]]].
  apply derives_cls in D1 as [q1 [-> [Q1|[]]]]. apply derives_cls in D6 as [q2 [-> [Q2|[]]]].
  apply derives_nt in D3 as [ch [-> D3]].
  destruct (den_qvalue e ch D3 []) as [v [F R]]. exists v. split.
  - rewrite !feeds_app. rewrite (feeds_node e _ R_quotedValue ch (NQuotedValue []) None) by reflexivity.
    rewrite F. cbn [app give]. change (feeds e (NQuotedString []) [Leaf q1]) with (NQuotedString []). cbn [give].
    rewrite (feeds_quiet e _ (Opt (Nt R_fws)) f5) by (first [exact D5 | reflexivity | (split; [|split]; reflexivity)]).
    reflexivity.
  - rewrite !yields_app, yields_node. exists q1, (yields ch), (yields f5), q2.
    split; [reflexivity|]. repeat split; auto. exists f5. auto.
Qed.

(** ** Words *)
Lemma feed_encoded e p ch : feed e p (Node R_encodedWord ch) =
  give p (NEncodedWord (encoded_word_value (reader e) (text (yields ch)))).
Proof. eapply feed_closed_node; [reflexivity|]. intros n; destruct n; reflexivity. Qed.

Lemma feed_atom e p ch : feed e p (Node R_atom ch) = give p (NAtom (text (yields ch))).
Proof. eapply feed_closed_node; [reflexivity|]. intros n; destruct n; reflexivity. Qed.

Lemma feed_dotAtom e p ch : feed e p (Node R_dotAtom ch) = give p (NDotAtom (text (yields ch))).
Proof. eapply feed_closed_node; [reflexivity|]. intros n; destruct n; reflexivity. Qed.

Lemma feed_domainLiteral e p ch : feed e p (Node R_domainLiteral ch) = give p (NDomainLiteral (text (yields ch))).
Proof. eapply feed_closed_node; [reflexivity|]. intros n; destruct n; reflexivity. Qed.

Lemma feed_port e p ch : feed e p (Node R_port ch) = give p (NPort (text (yields ch))).
Proof. eapply feed_closed_node; [reflexivity|]. intros n; destruct n; reflexivity. Qed.

Lemma feed_unspaced e p ch : feed e p (Node R_unspaced ch) = give p (NUnspaced (text (yields ch))).
Proof. eapply feed_closed_node; [reflexivity|]. intros n; destruct n; reflexivity. Qed.

Lemma feeds_cfws e p f : ignores_ws p -> derives (Opt (Nt R_cfws)) f -> feeds e p f = p.
Proof. intros HP D. eapply feeds_quiet; [exact HP | exact D | reflexivity]. Qed.

Lemma feeds_cfws1 e p f : ignores_ws p -> derives (Nt R_cfws) f -> feeds e p f = p.
Proof. intros HP D. eapply feeds_quiet; [exact HP | exact D | reflexivity]. Qed.

Ltac ign := split; [|split]; intros; reflexivity.

Lemma den_encs e f : derives (Plus (seqs [Opt (Nt R_cfws); Nt R_encodedWord; Opt (Nt R_cfws)])) f -> forall s,
  exists v, feeds e (NWord s) f = NWord (s ++ v) /\ r_encs (reader e) (yields f) v.
Proof.
  intros H. apply derives_plus in H as [f1 [fs [-> [D1 Hfs]]]].
  assert (ONE : forall f, derives (seqs [Opt (Nt R_cfws); Nt R_encodedWord; Opt (Nt R_cfws)]) f ->
    exists u w u', yields f = u ++ w ++ u' /\ opt_cfws u /\ lang (Nt R_encodedWord) w /\ opt_cfws u' /\
      forall s, feeds e (NWord s) f = NWord (s ++ encoded_word_value (reader e) (text w))).
  { intros f D. cbn [seqs] in D. apply derives_seq in D as [g1 [g2 [-> [A1 D]]]]. apply derives_seq in D as [g3 [g4 [-> [A3 A4]]]].
    apply derives_nt in A3 as [ch [-> A3]].
    exists (yields g1), (yields ch), (yields g4). split; [rewrite !yields_app, yields_node; reflexivity|].
    split; [exists g1; auto|]. split; [now apply lang_body|]. split; [exists g4; auto|]. intros s.
    rewrite !feeds_app, (feeds_cfws e _ g1) by (ign || assumption). rewrite feeds_one, feed_encoded. cbn [give].
    rewrite (feeds_cfws e _ g4) by (ign || assumption). reflexivity. }
  clear - D1 Hfs ONE. revert f1 D1. induction Hfs as [|f2 fs D2 Hfs IH]; intros f1 D1 s.
  - destruct (ONE f1 D1) as (u & w & u' & Y & H1 & H2 & H3 & F). exists (encoded_word_value (reader e) (text w)).
    cbn [concat]. rewrite app_nil_r, Y, F. split; [reflexivity | now constructor].
  - destruct (ONE f1 D1) as (u & w & u' & Y & H1 & H2 & H3 & F). cbn [concat].
    destruct (IH f2 D2 (s ++ encoded_word_value (reader e) (text w))) as [v [F2 R2]].
    exists (encoded_word_value (reader e) (text w) ++ v). rewrite feeds_app, F, F2, app_assoc. split; [reflexivity|].
    rewrite yields_app, Y, <- !app_assoc. now constructor.
Qed.

(** Where a word stopped: it could not have gone on. *)
Definition stops (k : wkind) (V : word -> Prop) (w : word) : Prop :=
  match k with
  | KEnc => ~ viable (seqs [Opt (Nt R_cfws); Nt R_encodedWord; Opt (Nt R_cfws)])
                (viable (Star (seqs [Opt (Nt R_cfws); Nt R_encodedWord; Opt (Nt R_cfws)])) V) w
  | KAtom _ false => ~ viable (Nt R_atext) (viable (Star (Nt R_atext)) (viable (Opt (Nt R_cfws)) V)) w
  | _ => True
  end.

Lemma sel_opt_nil a V w w' : sel (Opt a) V w [] w' -> w' = w.
Proof. intros S. apply sel_sound in S as [_ E]. cbn in E. now rewrite E. Qed.

Lemma opt_cfws_nil f : derives (Opt (Nt R_cfws)) f -> nonempty (yields f) = false -> f = [].
Proof.
  intros D H. apply derives_opt in D as [D| ->]; [|reflexivity]. exfalso.
  assert (L : lang (Nt R_cfws) []) by (exists f; split; [exact D|]; destruct (yields f); [reflexivity | discriminate]).
  apply lang_nullable in L. vm_compute in L. discriminate.
Qed.

(** a word may follow *)
Definition extends (V : word -> Prop) : Prop := forall u w, lang (Nt R_word) u -> V w -> V (u ++ w).

Lemma lang_atom_rest e r : lang (Nt R_atom) (e ++ r) -> r <> [] -> lang (Nt R_atom) r.
Proof.
  intros H N. apply lang_nt in H. apply lang_nt_i. change (body R_atom) with (Plus (Nt R_atext)) in *.
  assert (H' : lang (Star (Nt R_atext)) (e ++ r)) by (apply lang_seq in H as (x & y & -> & Hx & Hy); now apply lang_star_cons). clear H.
  apply lang_star_inv in H' as (us & E & Hus). revert e E. induction Hus as [|u us Hu Hus IH]; intros e E.
  - cbn [concat] in E. apply app_eq_nil in E as [_ E]. destruct (N E).
  - cbn [concat] in E. destruct e as [|c e].
    + cbn [app] in E. rewrite E. apply lang_seq_i; [exact Hu | now apply lang_star_concat].
    + apply single_lang in Hu as [t [-> _]]; [|reflexivity]. cbn [app] in E. injection E as _ E. exact (IH _ E).
Qed.

Lemma lang_word_atom u a u' : opt_cfws u -> lang (Nt R_atom) a -> opt_cfws u' -> lang (Nt R_word) (u ++ a ++ u').
Proof.
  intros H1 H2 H3. apply lang_nt_i. change (body R_word) with g_word. unfold g_word. cbn [alts]. apply lang_alt. right. apply lang_alt. left.
  cbn [seqs]. apply lang_seq. exists u, (a ++ u'). split; [reflexivity|]. split; [exact H1|]. apply lang_seq. exists a, u'. auto.
Qed.

Lemma lang_word_encs w : lang g_encs w -> lang (Nt R_word) w.
Proof. intros H. apply lang_nt_i. change (body R_word) with g_word. unfold g_word. cbn [alts]. apply lang_alt. left. exact H. Qed.

Lemma lang_encs_one u e u' : opt_cfws u -> lang (Nt R_encodedWord) e -> opt_cfws u' -> lang g_encs (u ++ e ++ u').
Proof.
  intros H1 H2 H3. unfold g_encs. apply lang_seq. exists (u ++ e ++ u'), []. rewrite app_nil_r. split; [reflexivity|]. split; [|apply lang_star; now left].
  cbn [seqs]. apply lang_seq. exists u, (e ++ u'). split; [reflexivity|]. split; [exact H1|]. apply lang_seq. exists e, u'. auto.
Qed.

Lemma den_word_sel e V w ch w' : sel (body R_word) V w ch w' -> V w' ->
  exists k v, feeds e (NWord []) ch = NWord v /\ r_word (reader e) k (yields ch) v /\ stops k V w' /\ (extends V -> unenc k (yields ch) v).
Proof.
  intros S HV. change (body R_word) with g_word in S. unfold g_word in S. cbn [alts] in S.
  assert (S0 := S). inversion S as [| | | |? ? ? ? ? ? HVi S1|? ? ? ? ? ? HVi S1| |]; subst; clear S.
  - assert (D := proj1 (sel_sound _ _ _ _ _ S1)). destruct (den_encs e ch D []) as [v [F R]].
    exists KEnc, v. split; [exact F|]. split; [now apply rw_enc|]. split; [cbn [stops]; eapply plus_stops; eassumption | intros _; exact I].
  - assert (NE : ~ lang g_encs (yields ch)).
    { intros HL. apply HVi. exists (yields ch), w'. split; [now apply sel_sound in S0|]. split; [exact HL | exact HV]. }
    inversion S1 as [| | | |? ? ? ? ? ? HVj S2|? ? ? ? ? ? HVj S2| |]; subst; clear S1.
    + cbn [seqs] in S2. inversion S2 as [| | |? ? ? ? ? ? ? ? T1 T2| | | |]; subst.
      inversion T2 as [| | |? ? ? ? ? ? ? ? T3 T4| | | |]; subst.
      assert (A1 := proj1 (sel_sound _ _ _ _ _ T1)). assert (A4 := proj1 (sel_sound _ _ _ _ _ T4)).
      inversion T3 as [| |? ? ? fa ? T5| | | | |]; subst. assert (A3 := proj1 (sel_sound _ _ _ _ _ T5)).
      exists (KAtom (nonempty (yields f1)) (nonempty (yields f3))), (text (yields fa)).
      rewrite !feeds_app, (feeds_cfws e _ f1) by (ign || assumption). rewrite feeds_one, feed_atom. cbn [give].
      rewrite (feeds_cfws e _ f3) by (ign || assumption). split; [reflexivity|].
      rewrite !yields_app, yields_node in NE |- *. split; [|split].
      * apply rw_atom; [exists f1; auto | now apply lang_body | exists f3; auto | exact NE].
      * cbn [stops]. destruct (nonempty (yields f3)) eqn:E3; [exact I|]. apply opt_cfws_nil in E3; [|assumption]. subst f3.
        apply sel_opt_nil in T4. subst. change (body R_atom) with (Plus (Nt R_atext)) in T5. eapply plus_stops; eassumption.
      * intros X. exists (yields f1), (yields fa), (yields f3). assert (LA : lang (Nt R_atom) (yields fa)) by now apply lang_body.
        assert (C1 : opt_cfws (yields f1)) by (exists f1; auto). assert (C3 : opt_cfws (yields f3)) by (exists f3; auto).
        repeat (split; [first [reflexivity | assumption]|]). intros e0 r0 Ea He. destruct r0 as [|c r0].
        -- rewrite app_nil_r in Ea. apply NE. rewrite Ea. now apply lang_encs_one.
        -- apply HVi. exists (yields f1 ++ e0 ++ []), ((c :: r0) ++ yields f3 ++ w'). split; [|split].
           ++ apply sel_sound in S0 as [_ E0]. rewrite !yields_app, yields_node, Ea in E0. rewrite E0, app_nil_r, <- !app_assoc. reflexivity.
           ++ apply lang_encs_one; [exact C1 | exact He | apply lang_opt_none].
           ++ rewrite app_assoc. apply X; [|exact HV]. change ((c :: r0) ++ yields f3) with ([] ++ (c :: r0) ++ yields f3). apply lang_word_atom; [apply lang_opt_none | | exact C3].
              rewrite Ea in LA. eapply lang_atom_rest; [exact LA | discriminate].
    + assert (D := proj1 (sel_sound _ _ _ _ _ S2)).
      cbn [seqs] in D. apply derives_seq in D as [g1 [g2 [-> [A1 D]]]]. apply derives_seq in D as [g3 [g4 [-> [A3 A4]]]].
      apply derives_nt in A3 as [ch [-> A3]]. destruct (den_qstring e ch A3) as [v [F R]]. exists KQuo, v.
      rewrite !feeds_app, (feeds_cfws e _ g1) by (ign || assumption).
      rewrite (feeds_node e _ R_quotedString ch (NQuotedString []) None) by reflexivity. rewrite F. cbn [give].
      rewrite (feeds_cfws e _ g4) by (ign || assumption). split; [reflexivity|]. split; [|split; [exact I | intros _; exact I]].
      rewrite !yields_app, yields_node. apply rw_quoted; [exists g1; auto | assumption | exists g4; auto].
Qed.

Lemma den_word e ch : chosen (body R_word) ch ->
  exists k v, feeds e (NWord []) ch = NWord v /\ r_word (reader e) k (yields ch) v.
Proof. intros (V & w' & HV & S). destruct (den_word_sel e _ _ _ _ S HV) as (k & v & F & R & _ & _). eauto. Qed.

Lemma feeds_word e p ch : chosen (body R_word) ch ->
  exists k v, feeds e p [Node R_word ch] = give p (NWord v) /\ r_word (reader e) k (yields ch) v.
Proof.
  intros D. destruct (den_word e ch D) as (k & v & F & R). exists k, v. split; [|assumption].
  rewrite (feeds_node e _ R_word ch (NWord []) None) by reflexivity. now rewrite F.
Qed.

(** ** Display names *)

Lemma encs_star w v rd : r_encs rd w v -> exists u r, w = u ++ r /\
  lang (seqs [Opt (Nt R_cfws); Nt R_encodedWord; Opt (Nt R_cfws)]) u /\
  lang (Star (seqs [Opt (Nt R_cfws); Nt R_encodedWord; Opt (Nt R_cfws)])) r.
Proof.
  assert (ONE : forall u e u', opt_cfws u -> lang (Nt R_encodedWord) e -> opt_cfws u' ->
    lang (seqs [Opt (Nt R_cfws); Nt R_encodedWord; Opt (Nt R_cfws)]) (u ++ e ++ u')).
  { intros u e u' H1 H2 H3. cbn [seqs]. apply lang_seq. exists u, (e ++ u'). split; [reflexivity|]. split; [exact H1|].
    apply lang_seq. exists e, u'. auto. }
  induction 1 as [u e u' H1 H2 H3|u e u' w v H1 H2 H3 H IH].
  - exists (u ++ e ++ u'), []. rewrite app_nil_r. split; [reflexivity|]. split; [auto|]. apply lang_star. now left.
  - exists (u ++ e ++ u'), w. split; [now rewrite <- !app_assoc|]. split; [auto|]. apply lang_star. right.
    destruct IH as (x & y & -> & Hx & Hy). exists x, y. auto.
Qed.

Lemma stop_enc (I : gexp) (V : word -> Prop) x w' :
  stops KEnc (viable (Star I) V) (x ++ w') -> viable (Star I) V w' -> ~ lang g_encs x.
Proof.
  intros HS HV HL. cbn [stops] in HS. apply HS. unfold g_encs in HL. apply lang_seq in HL as (u & r & -> & Hu & Hr).
  rewrite <- app_assoc. exists u, (r ++ w'). split; [reflexivity|]. split; [exact Hu|]. exists r, w'. auto.
Qed.

Lemma stop_atom (I : gexp) (V : word -> Prop) b a' v rd w w' :
  stops (KAtom b false) (viable (Star I) V) (w ++ w') -> r_word rd (KAtom false a') w v -> viable (Star I) V w' -> False.
Proof.
  intros HS HR HV. cbn [stops] in HS. apply HS. inversion HR; subst.
  destruct u as [|? ?]; [|discriminate]. cbn [app].
  match goal with H : lang (Nt R_atom) _ |- _ => apply lang_nt in H; change (body R_atom) with (Plus (Nt R_atext)) in H;
    apply lang_seq in H as (x & y & -> & Hx & Hy) end.
  rewrite <- !app_assoc. exists x, (y ++ u' ++ w'). split; [reflexivity|]. split; [exact Hx|]. exists y, (u' ++ w').
  split; [reflexivity|]. split; [exact Hy|]. exists u', w'. auto.
Qed.

Lemma stop_join (V : word -> Prop) b w w' : stops (KAtom b false) V (w ++ w') -> V w' -> extends V -> no_join w.
Proof.
  intros HS HV X e u r -> HA HU HR. cbn [stops] in HS. apply HS.
  apply lang_nt in HA; change (body R_atom) with (Plus (Nt R_atext)) in HA; apply lang_seq in HA as (x & y & -> & Hx & Hy).
  rewrite <- !app_assoc. exists x, (y ++ u ++ r ++ w'). split; [reflexivity|]. split; [exact Hx|]. exists y, (u ++ r ++ w').
  split; [reflexivity|]. split; [exact Hy|]. exists u, (r ++ w'). split; [reflexivity|]. split; [exact HU|].
  destruct HR as [-> |HR]; [exact HV|]. apply X; [now apply lang_word_encs | exact HV].
Qed.

Lemma extends_star (I : gexp) (V : word -> Prop) : (forall u, lang (Nt R_word) u -> lang I u) -> extends (viable (Star I) V).
Proof.
  intros HI u w Hu (x & y & -> & Hx & Hy). exists (u ++ x), y. split; [apply app_assoc|]. split; [|exact Hy]. apply lang_star. right. exists u, x. auto.
Qed.

Lemma den_ditems_sel e I V w f w' :
  (forall u, lang (Nt R_word) u -> lang I u) ->
  (forall V w f w', sel I V w f w' -> V w' -> sel (Nt R_word) V w f w' \/ derives (Nt R_unspaced) f \/ derives (Nt R_cfws) f) ->
  sel (Star I) V w f w' -> V w' ->
  exists fs l, f = concat fs /\ Forall2 (r_ditem (reader e)) (map yields fs) l /\ apart (map yields fs) l /\
    (forall pre, stops KEnc (viable (Star I) V) (pre ++ w) -> enc_gap pre (map yields fs) l) /\
    (forall b, stops (KAtom b false) (viable (Star I) V) w -> follows (KAtom b false) (map yields fs) l) /\
    forall n u, exists u', feeds e (NDisplayName n u) (concat fs) = NDisplayName (dname n u l) u'.
Proof.
  intros HW HI S. pose proof (fun V => extends_star I V HW) as HX. remember (Star I) as g eqn:E. revert E. induction S; intros E HV; try discriminate; injection E as ->.
  2:{ exists [], []. split; [reflexivity|]. split; [constructor|]. split; [exact Logic.I|]. split; [intros; exact Logic.I|].
      split; [intros; exact Logic.I|]. intros n u. exists u. reflexivity. }
  clear IHS1. destruct (IHS2 HX eq_refl HV) as (fs & l & -> & R & A & G1 & G2 & F). clear IHS2.
  assert (HV1 : viable (Star I) V w1) by (eapply sel_viable; eassumption).
  assert (Ew : w = yields f1 ++ w1) by now apply sel_sound in S1.
  exists (f1 :: fs).
  destruct (HI _ _ _ _ S1 HV1) as [Hg|[Hg|Hg]].
  - inversion Hg as [| |? ? ? ch ? Sw| | | | |]; subst.
    destruct (den_word_sel e _ _ _ _ Sw HV1) as (k & v & Fv & Rv & St & Ue). specialize (Ue (HX _)).
    exists (DWord k v :: l). split; [reflexivity|]. split; [constructor; [rewrite yields_node; now constructor | assumption]|].
    rewrite yields_node in *. split; [|split; [|split]].
    + cbn [map apart]. rewrite yields_node. split; [|split; [exact Ue | exact A]]. destruct k as [|b [|]|]; cbn [follows]; try exact Logic.I.
      * apply (G1 []). exact St.
      * apply (G2 b). exact St.
    + intros pre St0. cbn [map enc_gap]. destruct k; try exact Logic.I. rewrite yields_node. rewrite app_assoc in St0.
      eapply stop_enc; eassumption.
    + intros b St0. cbn [map follows]. destruct k as [|[|] a'|]; try exact Logic.I; [|eapply stop_atom; eassumption]. rewrite yields_node. eapply stop_join; [exact St0 | exact HV1 | apply HX].
    + intros n u. cbn [concat]. rewrite feeds_app, (feeds_node e _ R_word ch (NWord []) None) by reflexivity.
      rewrite Fv. cbn [give dname]. destruct u; [apply F|]. destruct n; apply F.
  - apply derives_nt in Hg as [ch [-> D]]. change (body R_unspaced) with (Cls [T_Period; T_At]) in D. apply derives_cls in D as [t [-> Ht]].
    exists (DUnspaced (tok_text t) :: l). split; [reflexivity|]. split; [constructor; [rewrite yields_node; now constructor | assumption]|].
    split; [exact A|]. split; [intros; exact Logic.I|]. split; [intros; exact Logic.I|].
    intros n u. cbn [concat]. rewrite feeds_app, feeds_one, feed_unspaced. cbn [give dname yields flat_map yield app text].
    rewrite app_nil_r. apply F.
  - exists (DSkip :: l). split; [reflexivity|]. split; [constructor; [apply rd_skip; exists f1; auto | assumption]|].
    split; [exact A|]. split; [|split; [intros; exact Logic.I|]].
    + intros pre St0. cbn [map enc_gap]. apply G1. rewrite <- app_assoc. now rewrite <- Ew.
    + intros n u. cbn [concat]. rewrite feeds_app, (feeds_cfws1 e _ f1) by (ign || assumption). apply F.
Qed.

Lemma den_display_seq e I V w ch w' :
  (forall u, lang (Nt R_word) u -> lang I u) ->
  (forall V w f w', sel I V w f w' -> V w' -> sel (Nt R_word) V w f w' \/ derives (Nt R_unspaced) f \/ derives (Nt R_cfws) f) ->
  sel (Seq (Nt R_word) (Star I)) V w ch w' -> V w' ->
  exists v u, feeds e (NDisplayName [] false) ch = NDisplayName v u /\ r_display (reader e) (yields ch) v.
Proof.
  intros HW HI S HV. inversion S as [| | |? ? ? ? f1 w1 f2 ? S1 S2| | | |]; subst. clear S.
  assert (HV1 : viable (Star I) V w1) by (eapply sel_viable; eassumption).
  destruct (den_ditems_sel e I V _ _ _ HW HI S2 HV) as (fs & l & -> & R & A & G1 & G2 & F).
  inversion S1 as [| |? ? ? c1 ? Sw| | | | |]; subst.
  destruct (den_word_sel e _ _ _ _ Sw HV1) as (k & v & Fv & Rv & St & Ue). specialize (Ue (extends_star I V HW)).
  destruct (F v false) as [u' F2]. exists (dname v false l), u'. split.
  - rewrite feeds_app, (feeds_node e _ R_word c1 (NWord []) None) by reflexivity. rewrite Fv. exact F2.
  - rewrite yields_app, yields_node, yields_concat. exists k, (yields c1), v, (map yields fs), l.
    split; [reflexivity|]. split; [exact Rv|]. split; [exact R|]. split; [|reflexivity].
    cbn [apart]. split; [|split; [exact Ue | exact A]]. destruct k as [|b [|]|]; cbn [follows]; try exact Logic.I.
    + apply (G1 []). exact St.
    + apply (G2 b). exact St.
Qed.

Lemma den_display e ch : chosen (body R_displayName) ch ->
  exists v u, feeds e (NDisplayName [] false) ch = NDisplayName v u /\ r_display (reader e) (yields ch) v.
Proof.
  intros (V & w' & HV & S). change (body R_displayName) with g_displayName in S. unfold g_displayName in S. cbn [alts] in S.
  inversion S as [| | | |? ? ? ? ? ? HVi S1|? ? ? ? ? ? HVi S1| |]; subst; clear S.
  - eapply (den_display_seq e (Nt R_word)); [auto| |exact S1 | exact HV]. auto.
  - cbn [seqs] in S1. eapply (den_display_seq e (alts [Nt R_word; Nt R_unspaced; Nt R_cfws])); [| |exact S1 | exact HV]; [intros; cbn [alts]; apply lang_alt; now left|].
    clear. intros V w f w' S HV. cbn [alts] in S. inversion S as [| | | |? ? ? ? ? ? HVi S1|? ? ? ? ? ? HVi S1| |]; subst; [now left|].
    right. apply sel_sound in S1 as [D _]. apply derives_alt in D as [D|D]; auto.
Qed.

(** ** Local parts and domains *)
Lemma den_obslocal e ch : chosen (body R_obsLocalPart) ch ->
  exists l, feeds e (NObsLocalPart []) ch = NObsLocalPart l /\ r_obslocal (reader e) (yields ch) l.
Proof.
  intros H. change (body R_obsLocalPart) with g_obsLocalPart in H. unfold g_obsLocalPart in H. cbn [seqs] in H.
  apply chosen_seq in H as [f1 [f2 [-> [D1 D2]]]]. apply chosen_nt in D1 as [ch [-> D1]].
  apply chosen_star in D2 as [fs [-> Hfs]].
  assert (G : forall s ch, chosen (body R_word) ch ->
     exists l, feeds e (NObsLocalPart s) ([Node R_word ch] ++ concat fs) = NObsLocalPart (s ++ l) /\
       r_obslocal (reader e) (yields ([Node R_word ch] ++ concat fs)) l).
  { clear ch D1. induction Hfs as [|f fs Df Hfs IH]; intros s ch D1.
    - destruct (feeds_word e (NObsLocalPart s) ch D1) as (k & v & F & R). exists [v]. cbn [concat]. rewrite app_nil_r, F.
      split; [reflexivity|]. rewrite yields_node. econstructor; eassumption.
    - destruct (feeds_word e (NObsLocalPart s) ch D1) as (k & v & F & R). cbn [give] in F.
      apply chosen_seq in Df as [g1 [g2 [-> [A1 A2]]]]. apply chosen_cls in A1 as [p [-> [Hp|[]]]].
      apply chosen_nt in A2 as [ch2 [-> A2]]. destruct (IH (s ++ [v]) ch2 A2) as [l [F2 R2]].
      exists (v :: l). cbn [concat]. split.
      + rewrite feeds_app, F, <- app_assoc, feeds_app. change (feeds e (NObsLocalPart (s ++ [v])) [Leaf p]) with (NObsLocalPart (s ++ [v])).
        rewrite F2, <- app_assoc. reflexivity.
      + rewrite yields_app, yields_node, <- app_assoc, yields_app. cbn [yields flat_map yield app]. eapply ol_more; eauto. }
  destruct (G [] ch D1) as [l [F R]]. exists l. auto.
Qed.

Lemma den_local e ch : chosen (body R_localPart) ch ->
  exists v, feeds e (NLocalPart []) ch = NLocalPart v /\ r_local (reader e) (yields ch) v.
Proof.
  intros H. change (body R_localPart) with g_localPart in H. unfold g_localPart in H. cbn [alts] in H.
  apply chosen_alt in H as [H|[H NL1]]; [|apply chosen_alt in H as [H|[H NL2]]].
  - cbn [seqs] in H. apply chosen_seq in H as [g1 [g2 [-> [A1 D]]]]. apply chosen_seq in D as [g3 [g4 [-> [A3 A4]]]].
    apply chosen_nt in A3 as [ch [-> A3]]. exists (text (yields ch)).
    rewrite !feeds_app, (feeds_cfws e _ g1) by (ign || auto). rewrite feeds_one, feed_dotAtom. cbn [give].
    rewrite (feeds_cfws e _ g4) by (ign || auto). split; [reflexivity|].
    rewrite !yields_app, yields_node. apply rl_dot; [exists g1; auto | apply lang_body; auto | exists g4; auto].
  - cbn [seqs] in H. apply chosen_seq in H as [g1 [g2 [-> [A1 D]]]]. apply chosen_seq in D as [g3 [g4 [-> [A3 A4]]]].
    apply chosen_nt in A3 as [ch [-> A3]]. destruct (den_qstring e ch (chosen_derives _ _ A3)) as [v [F R]]. exists v.
    rewrite !feeds_app, (feeds_cfws e _ g1) by (ign || auto).
    rewrite (feeds_node e _ R_quotedString ch (NQuotedString []) None) by reflexivity. rewrite F. cbn [give].
    rewrite (feeds_cfws e _ g4) by (ign || auto). split; [reflexivity|].
    rewrite !yields_app, yields_node. apply rl_quoted; [exists g1; auto | assumption | exists g4; auto].
  - apply chosen_nt in H as [ch0 [-> H]]. destruct (den_obslocal e ch0 H) as [l [F R]]. exists (join (bs ".") l).
    rewrite (feeds_node e _ R_obsLocalPart ch0 (NObsLocalPart []) None) by reflexivity. rewrite F. split; [reflexivity|].
    rewrite yields_node in NL1 |- *. now constructor.
Qed.

Lemma lex_period r : lex_rune r = Some T_Period -> (r =? 46)%N = true.
Proof. lex_cases. Qed.

Lemma tok_text_period t : tok_ok t -> tt t = T_Period -> tok_text t = bs ".".
Proof.
  intros H E. assert (L : lex_rune (tr t) = Some T_Period).
  { rewrite <- E. apply tok_ok_lex; [assumption | |]; rewrite E; discriminate. }
  apply lex_period, N.eqb_eq in L. unfold tok_text. rewrite E, L. reflexivity.
Qed.

Lemma den_obsdomain e ch : derives (body R_obsDomain) ch -> toks_ok ch ->
  exists l, feeds e (NObsDomain []) ch = NObsDomain l /\ join (bs ".") l = text (yields ch).
Proof.
  intros H. change (body R_obsDomain) with g_obsDomain in H. unfold g_obsDomain in H. cbn [seqs] in H.
  apply derives_seq in H as [f1 [f2 [-> [D1 D2]]]]. apply derives_nt in D1 as [ch [-> D1]].
  apply derives_star in D2 as [fs [-> Hfs]].
  assert (G : forall s ch, derives (body R_atom) ch -> toks_ok (concat fs) ->
     exists v l, feeds e (NObsDomain s) ([Node R_atom ch] ++ concat fs) = NObsDomain (s ++ v :: l) /\
       join (bs ".") (v :: l) = text (yields ([Node R_atom ch] ++ concat fs))).
  { clear ch D1. induction Hfs as [|f fs Df Hfs IH]; intros s ch D1 Hok.
    - exists (text (yields ch)), []. cbn [concat]. rewrite app_nil_r, feeds_one, feed_atom, yields_node. split; reflexivity.
    - apply derives_seq in Df as [g1 [g2 [-> [A1 A2]]]]. apply derives_cls in A1 as [p [-> [Hp|[]]]].
      apply derives_nt in A2 as [ch2 [-> A2]]. cbn [concat] in *. rewrite !toks_ok_app in Hok. destruct Hok as [[Hok1 _] Hok2].
      apply toks_ok_leaf in Hok1.
      destruct (IH (s ++ [text (yields ch)]) ch2 A2 Hok2) as [v [l [F2 R2]]].
      exists (text (yields ch)), (v :: l). split.
      + rewrite feeds_app, feeds_one, feed_atom, <- app_assoc, feeds_app. cbn [give].
        change (feeds e ?x [Leaf p]) with x.
        rewrite F2, <- app_assoc. reflexivity.
      + rewrite yields_app, yields_node, <- app_assoc, yields_app, !text_app. 
        rewrite <- R2. cbn [yields flat_map yield app text join]. rewrite tok_text_period by auto. reflexivity. }
  intros Hok. rewrite toks_ok_app in Hok. destruct (G [] ch D1 (proj2 Hok)) as [v [l [F R]]]. eauto.
Qed.

Lemma den_domain e ch : derives (body R_domain) ch -> toks_ok ch ->
  exists v, feeds e (NDomain []) ch = NDomain v /\ r_domain (yields ch) v.
Proof.
  intros H Hok. change (body R_domain) with g_domain in H. unfold g_domain in H. cbn [alts] in H.
  apply derives_alt in H as [H|H]; [|apply derives_alt in H as [H|H]]; cbn [seqs] in H;
    apply derives_seq in H as [g1 [g2 [-> [A1 D]]]]; apply derives_seq in D as [g3 [g4 [-> [A3 A4]]]];
    apply derives_nt in A3 as [ch [-> A3]]; exists (text (yields ch)).
  - rewrite !feeds_app, (feeds_cfws e _ g1) by (ign || assumption). rewrite feeds_one, feed_dotAtom. cbn [give].
    rewrite (feeds_cfws e _ g4) by (ign || assumption). split; [reflexivity|].
    rewrite !yields_app, yields_node. apply rdm; [exists g1; auto | left; apply lang_body; auto | exists g4; auto].
  - rewrite !feeds_app, (feeds_cfws e _ g1) by (ign || assumption). rewrite feeds_one, feed_domainLiteral. cbn [give].
    rewrite (feeds_cfws e _ g4) by (ign || assumption). split; [reflexivity|].
    rewrite !yields_app, yields_node. apply rdm; [exists g1; auto | right; left; apply lang_body; auto | exists g4; auto].
  - rewrite !toks_ok_app, toks_ok_node in Hok. destruct Hok as [_ [Hok _]].
    destruct (den_obsdomain e ch A3 Hok) as [l [F R]].
    rewrite !feeds_app, (feeds_cfws e _ g1) by (ign || assumption).
    rewrite (feeds_node e _ R_obsDomain ch (NObsDomain []) None) by reflexivity. rewrite F. cbn [give].
    rewrite (feeds_cfws e _ g4) by (ign || assumption). rewrite R. split; [reflexivity|].
    rewrite !yields_app, yields_node. apply rdm; [exists g1; auto | right; right; apply lang_body; auto | exists g4; auto].
Qed.

Lemma den_addrspec e ch : chosen (body R_addrSpec) ch -> toks_ok ch ->
  exists l d, feeds e (NAddrSpec [] []) ch = NAddrSpec l d /\ r_addrspec (reader e) (yields ch) (at_join l d).
Proof.
  intros H Hok. change (body R_addrSpec) with g_addrSpec in H. unfold g_addrSpec in H. cbn [seqs] in H.
  apply chosen_seq in H as [f1 [f2 [-> [D1 H]]]]. apply chosen_seq in H as [f3 [f4 [-> [D3 H]]]].
  apply chosen_seq in H as [f5 [f6 [-> [D5 D6]]]]. rewrite !toks_ok_app in Hok.
  apply chosen_nt in D1 as [c1 [-> D1]]. apply chosen_cls in D3 as [a [-> [Ha|[]]]]. apply chosen_nt in D5 as [c5 [-> D5]].
  rewrite !toks_ok_node in Hok. destruct Hok as [_ [_ [Hok5 _]]].
  destruct (den_local e c1 D1) as [l [F1 R1]]. destruct (den_domain e c5 (chosen_derives _ _ D5) Hok5) as [d [F5 R5]].
  assert (HF : forall f, feeds e (NAddrSpec [] []) ([Node R_localPart c1] ++ [Leaf a] ++ [Node R_domain c5] ++ f) = feeds e (NAddrSpec l d) f).
  { intros f. rewrite !feeds_app, (feeds_node e _ R_localPart c1 (NLocalPart []) None) by reflexivity. rewrite F1. cbn [give].
    change (feeds e (NAddrSpec l []) [Leaf a]) with (NAddrSpec l []).
    rewrite (feeds_node e _ R_domain c5 (NDomain []) None) by reflexivity. rewrite F5. reflexivity. }
  rewrite HF. apply chosen_opt in D6 as [D6| ->].
  - apply chosen_seq in D6 as [g1 [g2 [-> [A1 A2]]]]. apply chosen_cls in A1 as [c [-> [Hc|[]]]]. apply chosen_nt in A2 as [cp [-> A2]].
    exists l, (d ++ bs ":" ++ text (yields cp)). split; [rewrite feeds_app, feeds_one, feeds_one, feed_port; reflexivity|].
    rewrite !yields_app, !yields_node. cbn [yields flat_map yield app]. apply ras_port; auto. apply lang_body; auto.
  - exists l, d. split; [reflexivity|]. rewrite !yields_app, !yields_node. cbn [yields flat_map yield app]. rewrite app_nil_r.
    now apply ras.
Qed.

(** ** Mailboxes *)
Definition route_tbl : list nat := Eval vm_compute in reach R_obsRoute.
Definition in_route (r : rule) : bool := mem_rule r route_tbl.

Lemma in_route_closed : closed in_route = true.
Proof. vm_compute. reflexivity. Qed.

Lemma den_angle e ch : chosen (body R_angleAddr) ch -> toks_ok ch ->
  exists a, feeds e (NAngleAddr []) ch = NAngleAddr a /\ r_angle (reader e) (yields ch) a.
Proof.
  intros H Hok. change (body R_angleAddr) with g_angleAddr in H. unfold g_angleAddr in H. cbn [alts seqs] in H.
  apply chosen_alt in H as [H|[H NL1]].
  - apply chosen_seq in H as [f1 [f2 [-> [D1 H]]]]. apply chosen_seq in H as [f3 [f4 [-> [D3 H]]]].
    apply chosen_seq in H as [f5 [f6 [-> [D5 H]]]]. apply chosen_seq in H as [f7 [f8 [-> [D7 D8]]]].
    apply chosen_cls in D3 as [lt [-> [H3|[]]]]. apply chosen_cls in D7 as [gt [-> [H7|[]]]].
    rewrite !toks_ok_app in Hok. destruct Hok as [_ [_ [Hok5 _]]].
    apply chosen_opt in D5 as [D5| ->].
    + apply chosen_nt in D5 as [c5 [-> D5]]. rewrite toks_ok_node in Hok5. destruct (den_addrspec e c5 D5 Hok5) as [l [d [F R]]].
      exists (at_join l d). split.
      * rewrite !feeds_app, (feeds_cfws e _ f1) by (ign || auto).
        change (feeds e (NAngleAddr []) [Leaf lt]) with (NAngleAddr []).
        rewrite (feeds_node e _ R_addrSpec c5 (NAddrSpec [] []) None) by reflexivity. rewrite F. cbn [give].
        change (feeds e (NAngleAddr (at_join l d)) [Leaf gt]) with (NAngleAddr (at_join l d)).
        apply feeds_cfws; [ign | auto].
      * rewrite !yields_app, yields_node. cbn [yields flat_map yield app]. apply ra_some; auto; [exists f1; auto | exists f8; auto].
    + exists []. split.
      * rewrite !feeds_app, (feeds_cfws e _ f1) by (ign || auto). cbn [app].
        change (feeds e (feeds e (NAngleAddr []) [Leaf lt]) [Leaf gt]) with (NAngleAddr []).
        apply feeds_cfws; [ign | auto].
      * rewrite !yields_app. cbn [yields flat_map yield app]. apply ra_none; auto; [exists f1; auto | exists f8; auto].
  - apply chosen_nt in H as [ch0 [-> H]]. rewrite toks_ok_node in Hok. change (body R_obsAngleAddr) with g_obsAngleAddr in H.
    unfold g_obsAngleAddr in H. cbn [seqs] in H.
    apply chosen_seq in H as [f1 [f2 [-> [D1 H]]]]. apply chosen_seq in H as [f3 [f4 [-> [D3 H]]]].
    apply chosen_seq in H as [f5 [f6 [-> [D5 H]]]]. apply chosen_seq in H as [f7 [f8 [-> [D7 H]]]].
    apply chosen_seq in H as [f9 [f10 [-> [D9 D10]]]].
    apply chosen_cls in D3 as [lt [-> [H3|[]]]]. apply chosen_cls in D9 as [gt [-> [H9|[]]]].
    apply chosen_nt in D7 as [c7 [-> D7]]. rewrite !toks_ok_app, toks_ok_node in Hok. destruct Hok as [_ [_ [_ [Hok7 _]]]].
    destruct (den_addrspec e c7 D7 Hok7) as [l [d [F R]]].
    exists (at_join l d). split.
    + rewrite (feeds_node e _ R_obsAngleAddr _ (NObsAngleAddr []) None) by reflexivity.
      rewrite !feeds_app, (feeds_cfws e _ f1) by (ign || auto).
      change (feeds e (NObsAngleAddr []) [Leaf lt]) with (NObsAngleAddr []).
      rewrite (feeds_inert e (NObsAngleAddr []) f5 in_route).
      * rewrite (feeds_node e _ R_addrSpec c7 (NAddrSpec [] []) None) by reflexivity. rewrite F. cbn [give].
        change (feeds e (NObsAngleAddr (at_join l d)) [Leaf gt]) with (NObsAngleAddr (at_join l d)).
        rewrite (feeds_cfws e _ f10) by (ign || auto). reflexivity.
      * intros r n Hr Hn. destruct r; vm_compute in Hr; try discriminate Hr; destruct n; try discriminate Hn; reflexivity.
      * eapply derives_rules; [apply in_route_closed | apply chosen_derives; exact D5 | reflexivity].
    + rewrite yields_node, !yields_app, yields_node. cbn [yields flat_map yield app].
      apply ra_route; auto; [exists f1; auto | exists f5; auto | exists f10; auto].
Qed.

Lemma den_mailbox e ch : chosen (body R_mailbox) ch -> toks_ok ch ->
  exists n a, feeds e (NMailbox [] []) ch = NMailbox n a /\ r_mailbox (reader e) (yields ch) (mkAddr n a).
Proof.
  intros H Hok. change (body R_mailbox) with g_mailbox in H. unfold g_mailbox in H. cbn [alts] in H.
  apply chosen_alt in H as [H|[H NL1]]; apply chosen_nt in H as [c [-> H]]; rewrite toks_ok_node in Hok.
  - change (body R_nameAddr) with g_nameAddr in H. unfold g_nameAddr in H. cbn [seqs] in H.
    apply chosen_seq in H as [f1 [f2 [-> [D1 D2]]]]. apply chosen_nt in D2 as [c2 [-> D2]].
    rewrite toks_ok_app, toks_ok_node in Hok. destruct (den_angle e c2 D2 (proj2 Hok)) as [a [F2 R2]].
    rewrite (feeds_node e _ R_nameAddr _ (NNameAddr [] []) None) by reflexivity. rewrite feeds_app.
    rewrite (feeds_node e _ R_angleAddr c2 (NAngleAddr []) None) by reflexivity. rewrite F2.
    apply chosen_opt in D1 as [D1| ->].
    + apply chosen_nt in D1 as [c1 [-> D1]]. destruct (den_display e c1 D1) as [v [u [F1 R1]]]. exists v, a. split.
      * rewrite (feeds_node e _ R_displayName c1 (NDisplayName [] false) None) by reflexivity. rewrite F1. reflexivity.
      * rewrite yields_node, yields_app, !yields_node. now apply rm_name.
    + exists [], a. split; [reflexivity|]. rewrite yields_node. cbn [app]. rewrite yields_node. now apply rm_angle.
  - destruct (den_addrspec e c H Hok) as [l [d [F R]]]. exists [], (at_join l d). split.
    + rewrite (feeds_node e _ R_addrSpec c (NAddrSpec [] []) None) by reflexivity. rewrite F. reflexivity.
    + rewrite yields_node. now apply rm_spec.
Qed.

(** ** Lists *)
(** [takes e p add]: feeding mailboxes to the node appends to its list *)
Lemma elems_append s xs : elems (append s xs) = elems s ++ xs.
Proof. destruct s, xs; cbn; rewrite ?app_nil_r; reflexivity. Qed.

Lemma junk_quiet : nts quiet (Star (seqs [Opt (Nt R_cfws); Tok T_Comma])) = true.
Proof. reflexivity. Qed.

(** A tail of separators with elements, white space or nothing. *)
Lemma den_tail e (K : slice -> node) (P : word -> list addr -> Prop) r seps :
  (forall s, ignores_ws (K s)) ->
  (forall s ch, chosen (body r) ch -> toks_ok ch ->
     exists s' l, feeds e (K s) [Node r ch] = K s' /\ elems s' = elems s ++ l /\ P (yields ch) l) ->
  forall fs, Forall (fun f => exists k x, f = Leaf k :: x /\ In (tt k) seps /\
                       (chosen (Nt r) x \/ derives (Opt (Nt R_cfws)) x)) fs ->
  toks_ok (concat fs) -> forall s,
  exists s' l, feeds e (K s) (concat fs) = K s' /\ elems s' = elems s ++ l /\ r_tail P seps (yields (concat fs)) l.
Proof.
  intros HI HE fs H. induction H as [|f fs [k [x [-> [Hk Hx]]]] Hfs IH]; intros Hok s.
  - exists s, []. rewrite app_nil_r. split; [reflexivity|]. split; [reflexivity|constructor].
  - cbn [concat] in *. rewrite toks_ok_app in Hok. destruct Hok as [Hok1 Hok2].
    change (Leaf k :: x) with ([Leaf k] ++ x) in Hok1. rewrite toks_ok_app in Hok1. destruct Hok1 as [_ Hokx].
    rewrite feeds_app, feeds_cons. change (feed e (K s) (Leaf k)) with (K s).
    rewrite yields_app, yields_cons. cbn [yield app].
    destruct Hx as [Hx|Hx].
    + apply chosen_nt in Hx as [ch [-> Hx]]. rewrite toks_ok_node in Hokx.
      destruct (HE s ch Hx Hokx) as [s1 [l1 [F1 [E1 R1]]]]. destruct (IH Hok2 s1) as [s2 [l2 [F2 [E2 R2]]]].
      exists s2, (l1 ++ l2). rewrite F1, F2. split; [reflexivity|]. split; [rewrite E2, E1; now rewrite app_assoc|].
      rewrite yields_node. now constructor.
    + rewrite (feeds_cfws e _ x) by auto. destruct (IH Hok2 s) as [s2 [l2 [F2 [E2 R2]]]].
      exists s2, l2. split; [exact F2|]. split; [exact E2|]. apply rt_skip; auto. exists x. auto.
Qed.

Lemma den_list e (K : slice -> node) (P : word -> list addr -> Prop) r seps j c fs :
  (forall s, ignores_ws (K s)) ->
  (forall s ch, chosen (body r) ch -> toks_ok ch ->
     exists s' l, feeds e (K s) [Node r ch] = K s' /\ elems s' = elems s ++ l /\ P (yields ch) l) ->
  derives (Star (seqs [Opt (Nt R_cfws); Tok T_Comma])) j -> chosen (body r) c ->
  Forall (fun f => exists k x, f = Leaf k :: x /\ In (tt k) seps /\
                       (chosen (Nt r) x \/ derives (Opt (Nt R_cfws)) x)) fs ->
  toks_ok (j ++ [Node r c] ++ concat fs) -> forall s,
  exists s' l, feeds e (K s) (j ++ [Node r c] ++ concat fs) = K s' /\ elems s' = elems s ++ l /\
    r_list P seps (yields (j ++ [Node r c] ++ concat fs)) l.
Proof.
  intros HI HE HJ HC Hfs Hok s. rewrite !toks_ok_app, toks_ok_node in Hok. destruct Hok as [_ [Hok1 Hok2]].
  rewrite !feeds_app. rewrite (feeds_quiet e _ _ j (HI s) HJ eq_refl).
  destruct (HE s c HC Hok1) as [s1 [l1 [F1 [E1 R1]]]].
  destruct (den_tail e K P r seps HI HE fs Hfs Hok2 s1) as [s2 [l2 [F2 [E2 R2]]]].
  exists s2, (l1 ++ l2). rewrite F1, F2. split; [reflexivity|]. split; [rewrite E2, E1; now rewrite app_assoc|].
  rewrite !yields_app, yields_node. exists (yields j), (yields c), l1, (yields (concat fs)), l2.
  split; [reflexivity|]. split; [exists j; auto|]. auto.
Qed.

(** the two list shapes of the grammar *)
Lemma plain_list_shape2 r seps f1 f2 : chosen (Nt r) f1 -> chosen (Star (seqs [Cls seps; Nt r])) f2 ->
  exists c fs, f1 ++ f2 = [] ++ [Node r c] ++ concat fs /\ chosen (body r) c /\
    Forall (fun f => exists k x, f = Leaf k :: x /\ In (tt k) seps /\ (chosen (Nt r) x \/ derives (Opt (Nt R_cfws)) x)) fs.
Proof.
  intros D1 D2. apply chosen_nt in D1 as [c [-> D1]].
  apply chosen_star in D2 as [fs [-> Hfs]]. exists c, fs. split; [reflexivity|]. split; [assumption|].
  eapply Forall_impl; [|exact Hfs]. intros g Hg. apply chosen_seq in Hg as [g1 [g2 [-> [A1 A2]]]].
  apply chosen_cls in A1 as [k [-> Hk]]. exists k, g2. auto.
Qed.

Lemma plain_list_shape r seps f : chosen (seqs [Nt r; Star (seqs [Cls seps; Nt r])]) f ->
  exists c fs, f = [] ++ [Node r c] ++ concat fs /\ chosen (body r) c /\
    Forall (fun f => exists k x, f = Leaf k :: x /\ In (tt k) seps /\ (chosen (Nt r) x \/ derives (Opt (Nt R_cfws)) x)) fs.
Proof.
  intros H. cbn [seqs] in H. apply chosen_seq in H as [f1 [f2 [-> [D1 D2]]]]. now apply plain_list_shape2.
Qed.

Lemma obs_list_shape r f : chosen (seqs [Star (seqs [Opt (Nt R_cfws); Tok T_Comma]); Nt r;
     Star (seqs [Tok T_Comma; Opt (alts [Nt r; Nt R_cfws])])]) f ->
  exists j c fs, f = j ++ [Node r c] ++ concat fs /\ derives (Star (seqs [Opt (Nt R_cfws); Tok T_Comma])) j /\ chosen (body r) c /\
    Forall (fun f => exists k x, f = Leaf k :: x /\ In (tt k) [T_Comma] /\ (chosen (Nt r) x \/ derives (Opt (Nt R_cfws)) x)) fs.
Proof.
  intros H. cbn [seqs] in H. apply chosen_seq in H as [j [f1 [-> [DJ H]]]]. apply chosen_seq in H as [f2 [f3 [-> [D1 D2]]]].
  apply chosen_nt in D1 as [c [-> D1]].
  apply chosen_star in D2 as [fs [-> Hfs]]. exists j, c, fs. split; [reflexivity|]. split; [auto|]. split; [assumption|].
  eapply Forall_impl; [|exact Hfs]. intros g Hg. apply chosen_seq in Hg as [g1 [g2 [-> [A1 A2]]]].
  apply chosen_cls in A1 as [k [-> Hk]]. exists k, g2. split; [reflexivity|]. split; [assumption|].
  apply chosen_opt in A2 as [A2| ->].
  - cbn [alts] in A2. apply chosen_alt in A2 as [A2|[A2 _]]; [auto|]. right. apply D_altl. auto.
  - right. apply D_altr. constructor.
Qed.

Lemma tail_mono P seps seps' w l : (forall t, In t seps -> In t seps') -> r_tail P seps w l -> r_tail P seps' w l.
Proof. intros HS. induction 1; [constructor | constructor; auto | apply rt_skip; auto]. Qed.

Lemma list_mono P seps seps' w l : (forall t, In t seps -> In t seps') -> r_list P seps w l -> r_list P seps' w l.
Proof.
  intros HS (j & x & l1 & t & l2 & E & HJ & HP & HT & EL). exists j, x, l1, t, l2.
  repeat split; auto. eapply tail_mono; eauto.
Qed.

Lemma mbox_step e (K : slice -> node) s ch :
  (forall s n a, give (K s) (NMailbox n a) = K (append s [mkAddr n a])) ->
  chosen (body R_mailbox) ch -> toks_ok ch ->
  exists s' l, feeds e (K s) [Node R_mailbox ch] = K s' /\ elems s' = elems s ++ l /\ r_mbox1 (reader e) (yields ch) l.
Proof.
  intros HG D Hok. destruct (den_mailbox e ch D Hok) as [n [a [F R]]].
  exists (append s [mkAddr n a]), [mkAddr n a]. rewrite (feeds_node e _ R_mailbox ch (NMailbox [] []) None) by reflexivity.
  rewrite F, HG, elems_append. split; [reflexivity|]. split; [reflexivity|]. exists (mkAddr n a). auto.
Qed.

Lemma den_mboxes e ch : chosen (body R_mailboxList) ch -> toks_ok ch ->
  exists s, feeds e (NMailboxList None) ch = NMailboxList s /\ r_mboxes (reader e) (yields ch) (elems s).
Proof.
  intros H Hok. change (body R_mailboxList) with g_mailboxList in H. unfold g_mailboxList in H. cbn [alts] in H.
  apply chosen_alt in H as [H|[H NL1]].
  - apply plain_list_shape in H as [c [fs [-> [D1 Hfs]]]].
    destruct (den_list e NMailboxList (r_mbox1 (reader e)) R_mailbox [T_Comma] [] c fs) with (s := @None (list addr)) as [s [l [F [E R]]]]; auto.
    + intros s. ign.
    + intros s ch D Ho. apply mbox_step; auto.
    + constructor.
    + exists s. split; [exact F|]. rewrite E. exact R.
  - apply chosen_nt in H as [ch0 [-> H]]. rewrite toks_ok_node in Hok.
    change (body R_obsMboxList) with g_obsMboxList in H. unfold g_obsMboxList in H.
    apply obs_list_shape in H as [j [c [fs [-> [DJ [D1 Hfs]]]]]].
    destruct (den_list e NObsMboxList (r_mbox1 (reader e)) R_mailbox [T_Comma] j c fs) with (s := @None (list addr)) as [s [l [F [E R]]]]; auto.
    + intros s. ign.
    + intros s ch D Ho. apply mbox_step; auto.
    + exists (append None (elems s)). rewrite (feeds_node e _ R_obsMboxList _ (NObsMboxList None) None) by reflexivity.
      rewrite F. split; [reflexivity|]. rewrite elems_append, yields_node. cbn [elems app] in *. rewrite E. exact R.
Qed.

Lemma opt_tok_i T f : derives (Opt (Tok T)) f -> opt_tok T (yields f).
Proof.
  intros H. apply derives_opt in H as [H| ->]; [|left; reflexivity]. apply derives_cls in H as [t [-> [Ht|[]]]]. right. exists t. auto.
Qed.

Lemma feeds_opt_tok e p T f : derives (Opt (Tok T)) f -> feeds e p f = p.
Proof. intros H. apply derives_opt in H as [H| ->]; [|reflexivity]. apply derives_cls in H as [t [-> _]]. reflexivity. Qed.

Lemma den_grouplist e ch : chosen (body R_groupList) ch -> toks_ok ch ->
  exists s, feeds e (NGroupList None) ch = NGroupList s /\ r_grouplist (reader e) (yields ch) (elems s).
Proof.
  intros H Hok. change (body R_groupList) with g_groupList in H. unfold g_groupList in H. cbn [alts] in H.
  apply chosen_alt in H as [H|[H NL1]]; [|apply chosen_alt in H as [H|[H NL2]]].
  - apply chosen_nt in H as [c [-> H]]. rewrite toks_ok_node in Hok. destruct (den_mboxes e c H Hok) as [s [F R]].
    exists (append None (elems s)). rewrite (feeds_node e _ R_mailboxList c (NMailboxList None) None) by reflexivity. rewrite F.
    split; [reflexivity|]. rewrite yields_node, elems_append. now apply gl_list.
  - exists None. rewrite (feeds_cfws1 e _ ch) by (ign || auto). split; [reflexivity|]. apply gl_cfws. exists ch. auto.
  - exists None. split; [|apply gl_obs; exists ch; auto]. eapply feeds_inert with (P := fun r => quiet r || mem_rule r [rule_ix R_obsGroupList]).
    + intros r n Hr Hn. apply orb_true_iff in Hr as [Hr|Hr].
      * destruct (quiet_nodes r n Hr Hn) as [[v ->]|[[v ->]|[v ->]]]; reflexivity.
      * destruct r; try discriminate Hr; destruct n; discriminate Hn.
    + eapply derives_rules; [|apply chosen_derives; exact H|]; vm_compute; reflexivity.
Qed.

Lemma feeds_display_group e s f : chosen (Nt R_displayName) f -> feeds e (NGroup s) f = NGroup s.
Proof.
  intros H. apply chosen_nt in H as [c [-> H]]. destruct (den_display e c H) as [v [u [F _]]].
  rewrite (feeds_node e _ R_displayName c (NDisplayName [] false) None) by reflexivity. rewrite F. reflexivity.
Qed.

Lemma den_group e ch : chosen (body R_group) ch -> toks_ok ch ->
  exists s, feeds e (NGroup None) ch = NGroup s /\ r_group (reader e) (yields ch) (elems s).
Proof.
  intros H Hok. change (body R_group) with g_group in H. unfold g_group in H. cbn [seqs] in H.
  apply chosen_seq in H as [f1 [f2 [-> [D1 H]]]]. apply chosen_seq in H as [f3 [f4 [-> [D3 H]]]].
  apply chosen_seq in H as [f5 [f6 [-> [D5 H]]]]. apply chosen_seq in H as [f7 [f8 [-> [D7 H]]]].
  apply chosen_seq in H as [f9 [f10 [-> [D9 H]]]]. apply chosen_seq in H as [f11 [f12 [-> [D11 D12]]]].
  apply chosen_cls in D5 as [c [-> [Hc|[]]]]. rewrite !toks_ok_app in Hok. destruct Hok as [_ [_ [_ [Hok7 _]]]].
  assert (HF : forall s, feeds e (NGroup s) (f9 ++ f11 ++ f12) = NGroup s).
  { intros s. rewrite !feeds_app, (feeds_opt_tok _ _ _ _ (chosen_derives _ _ D9)), (feeds_opt_tok _ _ _ _ (chosen_derives _ _ D11)). apply feeds_cfws; [ign | auto]. }
  pose proof (chosen_nt R_displayName f3) as DN. destruct (DN D3) as [cn [-> Dn]]. destruct (den_display e cn Dn) as [v [u [_ Rn]]].
  assert (HG : exists s, feeds e (NGroup None) f7 = NGroup s /\ r_grouplist (reader e) (yields f7) (elems s)).
  { apply chosen_opt in D7 as [D7| ->].
    - apply chosen_nt in D7 as [c7 [-> D7]]. rewrite toks_ok_node in Hok7. destruct (den_grouplist e c7 D7 Hok7) as [s [F R]].
      exists (append None (elems s)). rewrite (feeds_node e _ R_groupList c7 (NGroupList None) None) by reflexivity. rewrite F.
      split; [reflexivity|]. rewrite yields_node, elems_append. exact R.
    - exists None. split; [reflexivity | constructor]. }
  destruct HG as [s [F7 R7]]. exists s. split.
  - rewrite (feeds_app e _ f1), (feeds_opt_tok _ _ _ _ (chosen_derives _ _ D1)), (feeds_app e _ [_]), feeds_display_group by assumption.
    rewrite (feeds_app e _ [Leaf c]). change (feeds e (NGroup None) [Leaf c]) with (NGroup None).
    rewrite (feeds_app e _ f7), F7. apply HF.
  - rewrite !yields_app, yields_node. exists (yields f1), (yields cn), v, c, (yields f7), (yields f9), (yields f11), (yields f12).
    split; [reflexivity|]. repeat (split; [auto using opt_tok_i|]). exists f12. auto.
Qed.

Lemma den_address e s ch : chosen (body R_address) ch -> toks_ok ch ->
  exists s' l, feeds e (NAddressList s) [Node R_address ch] = NAddressList s' /\ elems s' = elems s ++ l /\
    r_address (reader e) (yields ch) l.
Proof.
  intros H Hok. change (body R_address) with g_address in H. unfold g_address in H. cbn [alts] in H.
  rewrite (feeds_node e _ R_address ch (NAddress None) None) by reflexivity.
  apply chosen_alt in H as [H|[H NL1]]; apply chosen_nt in H as [c [-> H]]; rewrite toks_ok_node in Hok.
  - destruct (den_mailbox e c H Hok) as [n [a [F R]]].
    rewrite (feeds_node e _ R_mailbox c (NMailbox [] []) None) by reflexivity. rewrite F. cbn [give].
    eexists. exists [mkAddr n a]. split; [reflexivity|]. rewrite elems_append. split; [reflexivity|].
    rewrite yields_node. now constructor.
  - destruct (den_group e c H Hok) as [s0 [F R]].
    rewrite (feeds_node e _ R_group c (NGroup None) None) by reflexivity. rewrite F. cbn [give].
    eexists. exists (elems s0). split; [reflexivity|]. rewrite !elems_append. split; [reflexivity|].
    rewrite yields_node in NL1 |- *. now apply rad_group.
Qed.

Theorem den_addresses e ch : chosen (body R_addressList) ch -> toks_ok ch ->
  exists w l, yields ch = w ++ l /\ map tt l = [T_EOF] /\
    r_list (r_address (reader e)) [T_Comma; T_Semicolon] w (elems (list_value e ch)).
Proof.
  intros H Hok. change (body R_addressList) with g_addressList in H. unfold g_addressList in H. cbn [alts] in H.
  assert (HH : exists j c fs k, (forall p, feeds e p ch = feeds e p (j ++ [Node R_address c] ++ concat fs)) /\
     yields ch = yields (j ++ [Node R_address c] ++ concat fs) ++ [k] /\ tt k = T_EOF /\
     toks_ok (j ++ [Node R_address c] ++ concat fs) /\
     derives (Star (seqs [Opt (Nt R_cfws); Tok T_Comma])) j /\ chosen (body R_address) c /\
     Forall (fun f => exists k x, f = Leaf k :: x /\ In (tt k) [T_Comma; T_Semicolon] /\ (chosen (Nt R_address) x \/ derives (Opt (Nt R_cfws)) x)) fs).
  { apply chosen_alt in H as [H|[H NL1]].
    - cbn [seqs] in H. apply chosen_seq in H as [f1 [f2 [-> [D1 H]]]]. apply chosen_seq in H as [f3 [f4 [-> [D3 D4]]]].
      apply chosen_cls in D4 as [k [-> [Hk|[]]]].
      pose proof (plain_list_shape2 _ _ _ _ D1 D3) as HP. destruct HP as [c [fs [E [D Hfs]]]]. exists [], c, fs, k.
      rewrite app_assoc in Hok |- *. rewrite toks_ok_app in Hok. destruct Hok as [Hok _]. rewrite E in Hok |- *.
      split; [intros p; now rewrite feeds_app|]. split; [now rewrite yields_app|]. split; [auto|]. split; [exact Hok|].
      split; [constructor|]. auto.
    - cbn [seqs] in H. apply chosen_seq in H as [f1 [f2 [-> [D1 D2]]]]. apply chosen_cls in D2 as [k [-> [Hk|[]]]].
      apply chosen_nt in D1 as [c1 [-> D1]].
      change (body R_obsAddrList) with g_obsAddrList in D1. unfold g_obsAddrList in D1.
      apply obs_list_shape in D1 as [j [c [fs [-> [DJ [D1 Hfs]]]]]]. exists j, c, fs, k.
      rewrite toks_ok_app, toks_ok_node in Hok. destruct Hok as [Hok _].
      split; [reflexivity|]. split; [now rewrite yields_app, yields_node|]. split; [auto|]. split; [exact Hok|].
      split; [assumption|]. split; [assumption|]. eapply Forall_impl; [|exact Hfs].
      intros f (k' & x & A & B & C). exists k', x. split; [assumption|]. split; [|assumption]. destruct B as [B|[]]. left. exact B. }
  destruct HH as (j & c & fs & k & HF & HY & Hk & Hoki & DJ & D & Hfs).
  destruct (den_list e NAddressList (r_address (reader e)) R_address [T_Comma; T_Semicolon] j c fs) with (s := @None (list addr)) as [s [l [F [E R]]]]; auto.
  { intros s. ign. }
  { intros s ch' D' Ho. now apply den_address. }
  exists (yields (j ++ [Node R_address c] ++ concat fs)), [k]. split; [exact HY|].
  split; [cbn; now rewrite Hk|]. unfold list_value. rewrite HF, F. cbn [elems app] in E. rewrite <- E in R. exact R.
Qed.
