(** C30: encoded words in local parts.  C44: joining two inputs with a comma. *)
From Coq Require Import String List NArith ZArith Bool Arith Lia.
From Verif Require Import Lexer Grammar Utf8 Strs Mime GoTime Parser Walker Api Spec ParserFacts
  WalkerFacts Static Total Cfws LangFacts LexFacts Utf8Facts First DateSpec AddrSpec Chosen AddrSem CharFacts PropApi PropInv
  ScanSpec ScanFacts ScanEnc ScanWords ScanName ScanAddr ScanBox ScanList PropScan AddrText MboxList TextLang TextScan PropText PropAddr PropSpec.
Import ListNotations.

(** * C44 *)

Lemma mailboxes_app rd enc x l y l' : mailboxes_m rd enc x l -> mailboxes_m rd enc y l' -> mailboxes_m rd enc (x ++ bs "," ++ y) (l ++ l').
Proof.
  induction 1 as [x a H|x a s z l H Hs H1 IH]; intros Hy.
  - apply (ms_more _ _ x a 44%N y l' H); auto.
  - rewrite <- !app_assoc. cbn [app] in *. apply ms_more; auto.
Qed.

(** Two lists of mailboxes, joined by a comma. *)
Theorem C44_mailbox_lists : forall e a b enc la lb, mailboxes_m (reader (wenv_of e)) enc (decode a) la -> mailboxes_m (reader (wenv_of e)) enc (decode b) lb ->
  ParseAddressList e a = Ret (Some la) None /\ ParseAddressList e b = Ret (Some lb) None /\
  ParseAddressList e (a ++ bs "," ++ b) = Ret (Some (la ++ lb)) None.
Proof.
  intros e a b enc la lb Ha Hb. split; [exact (C15_mailbox_list e a enc la Ha)|]. split; [exact (C15_mailbox_list e b enc lb Hb)|].
  apply (C15_mailbox_list e _ enc).
  change (bs "," ++ b) with (44%N :: b). rewrite decode_split by reflexivity. change (44%N :: decode b) with (bs "," ++ decode b). now apply mailboxes_app.
Qed.

(** ** Accepted inputs in general *)

Lemma accepted_runs e s sl b : ParseAddressList e s = Ret sl None -> paired (kept s) -> tamed b (MN false) (kept s) -> (b = true -> one_fold (kept s)) ->
  exists E, runs_to (MN false) (kept s) (MN false) E.
Proof.
  intros H NQ K O. destruct s as [|c s]; [exists []; apply runs_nil|]. apply reading in H as [L R]; [|discriminate].
  set (w := toks (kept (c :: s))) in *. assert (E : kept (c :: s) = rs w) by (symmetry; apply rs_toks). rewrite E in *. clear E. clearbody w.
  apply (paired_list _ b) in R; [|exact L | exact NQ | exact K | exact O].
  destruct (list_scan (reader (wenv_of e)) b false _ [T_Comma; T_Semicolon] (address0_scanned _ _) two_seps w _ [] R L eq_refl) as (E & RE & _); [rewrite app_nil_r; exact K | exact O|]. eauto.
Qed.

Lemma kept_split a b : kept (a ++ bs "," ++ b) = kept a ++ 44%N :: kept b.
Proof. unfold kept. change (bs "," ++ b) with (44%N :: b). rewrite decode_split by reflexivity. now rewrite filter_app. Qed.

(** Where two lists and the lists joined with a comma are all accepted, and the double quotes pair up in
    one way, and the encoded words in the joined text are as in C47, the addresses are those of the parts. *)
Theorem C44_accepted : forall e a b la lb l, let s := a ++ bs "," ++ b in
  paired (kept a) -> paired (kept b) -> paired (kept s) -> no_enc (kept s) \/ (tame (kept s) /\ one_fold (kept s)) ->
  ParseAddressList e a = Ret la None -> ParseAddressList e b = Ret lb None -> ParseAddressList e s = Ret l None ->
  elems l = elems la ++ elems lb.
Proof.
  intros e a b la lb l s Na Nb NQ K Ha Hb H. rewrite (C47_addresses_are_what_the_scanner_reports e _ _ H NQ K). unfold s in *. clear s.
  assert (Q : exists c, tamed c (MN false) (kept a ++ 44%N :: kept b) /\ (c = true -> one_fold (kept a) /\ one_fold (kept b))).
  { rewrite kept_split in K. destruct K as [K|[K O]]; [exists false | exists true]; (split; [|intros Hc]); [now apply no_enc_tamed | discriminate Hc | now apply tame_tamed|].
    apply one_fold_app in O as [O1 O2]. split; [exact O1|]. now apply (one_fold_app [44%N]) in O2. }
  destruct Q as (c & T & O).
  assert (Ta : tamed c (MN false) (kept a)) by exact (tamed_first _ _ _ _ T).
  destruct (accepted_runs e a la c Ha Na Ta (fun h => proj1 (O h))) as [E RE]. pose proof (runs_mo _ _ _ _ RE) as M.
  assert (Tb : tamed c (MN false) (kept b)).
  { apply (tamed_runs _ _ _ _ _ _ RE) in T. exact (tamed_next c (MN false) [44%N] (kept b) T). }
  assert (Side : forall x, tamed c (MN false) x -> (c = true -> one_fold x) -> no_enc x \/ (tame x /\ one_fold x)).
  { clear. intros x T O. destruct c; [right | left]; [split; [|now apply O]|]; intros cc ee tt He; destruct (T cc ee tt He) as [X Y]; [exact Y | discriminate X]. }
  rewrite (C47_addresses_are_what_the_scanner_reports e _ _ Ha Na (Side _ Ta (fun h => proj1 (O h)))), (C47_addresses_are_what_the_scanner_reports e _ _ Hb Nb (Side _ Tb (fun h => proj2 (O h)))).
  unfold addresses_of.
  assert (ES : scan (kept (a ++ bs "," ++ b)) = scan (kept a) ++ ESep :: scan (kept b)).
  { rewrite kept_split. refine (eq_trans (em_app (MN false) (kept a) _) _). refine (f_equal2 (@app _) (eq_refl _) _).
    unfold scan. transitivity (em (MN false) (44%N :: kept b)); [now f_equal|]. unfold em. cbn. destruct (run (MN false) (kept b)). reflexivity. }
  etransitivity; [apply f_equal; exact ES | apply elements_sep].
Qed.

(** Not so in general: encoded-word look-alikes, and lists that are accepted on their own only. *)
Definition joins_up : Prop := forall e a b la lb, ParseAddressList e a = Ret (Some la) None -> ParseAddressList e b = Ret (Some lb) None ->
  ParseAddressList e (a ++ bs "," ++ b) = Ret (Some (la ++ lb)) None.

Theorem C44_fails_with_lookalikes : exists a b l, (exists la, ParseAddressList env0 a = Ret (Some [la]) None) /\ (exists lb, ParseAddressList env0 b = Ret (Some [lb]) None) /\
  ParseAddressList env0 (a ++ bs "," ++ b) = Ret (Some [l]) None.
Proof.
  exists (bs "=?x?y?a@d"), (bs "n?= <x@y>"). eexists. split; [|split].
  - eexists. vm_compute. reflexivity.
  - eexists. vm_compute. reflexivity.
  - vm_compute. reflexivity.
Qed.

Theorem C44_fails_with_mixed_separators : exists a b, (exists la, ParseAddressList env0 a = Ret (Some la) None) /\ (exists lb, ParseAddressList env0 b = Ret (Some lb) None) /\
  ParseAddressList env0 (a ++ bs "," ++ b) = Ret None (Some ESyntax).
Proof.
  exists (bs "a@b;c@d"), (bs ",e@f"). split; [|split].
  - eexists. vm_compute. reflexivity.
  - eexists. vm_compute. reflexivity.
  - vm_compute. reflexivity.
Qed.

Theorem C44_not_in_general : ~ joins_up.
Proof.
  intros H. destruct C44_fails_with_mixed_separators as (a & b & (la & Ha) & (lb & Hb) & E). rewrite (H env0 a b la lb Ha Hb) in E. discriminate E.
Qed.

Example C44_met : let a := bs "g:a@b, =?utf-8?Q?x?=y <e@f>" in let b := bs "(,) N =?utf-8?Q?z?= <c@d>" in let s := (a ++ bs "," ++ b)%list in
  paired (kept a) /\ paired (kept b) /\ paired (kept s) /\ tame (kept s) /\ one_fold (kept s) /\
  (exists la, ParseAddressList env0 a = Ret la None) /\ (exists lb, ParseAddressList env0 b = Ret lb None) /\
  exists l, ParseAddressList env0 s = Ret l None /\ elems l = [mkAddr [] (bs "a@b"); mkAddr (bs "x y") (bs "e@f"); mkAddr (bs "N z") (bs "c@d")].
Proof.
  cbv zeta. split; [left; vm_compute; intuition discriminate|]. split; [left; vm_compute; intuition discriminate|]. split; [left; vm_compute; intuition discriminate|].
  split; [apply tameb_tame; vm_compute; reflexivity|]. split; [|split; [|split]].
  - intros p x q E. exfalso. assert (C : ~ In 13%N (kept (bs "g:a@b, =?utf-8?Q?x?=y <e@f>" ++ bs "," ++ bs "(,) N =?utf-8?Q?z?= <c@d>")%list)) by (vm_compute; intuition discriminate).
    apply C. rewrite E, !in_app_iff. right. left. now left.
  - eexists. vm_compute. reflexivity.
  - eexists. vm_compute. reflexivity.
  - eexists. split; vm_compute; reflexivity.
Qed.

(** * C30 *)

Lemma subseq_mid (x a b : list rune) : subseq x (a ++ x ++ b).
Proof. induction a as [|r a IH]; [|now constructor]. induction x as [|r x IH]; constructor; exact IH. Qed.

Lemma subseq_l (x y z : list rune) : subseq x y -> subseq x (y ++ z).
Proof. induction 1; constructor; auto. Qed.

Lemma qvalue_subseq w v : r_qvalue w v -> Forall lexed w -> exists u, v = encode u /\ subseq u (rs w).
Proof.
  induction 1 as [|u c w v1 v2 Hu Hc Hw IH]; intros L; [exists []; split; [reflexivity | constructor]|].
  apply Forall_app in L as [Lu L]. apply Forall_app in L as [Lc Lw]. destruct (IH Lw) as (u2 & -> & S2).
  assert (C : exists u1, v1 = encode u1 /\ subseq u1 (rs c)).
  { destruct Hc as [t Ht|b t Hb Ht|b t Hb Ht].
    - exists [tr t]. apply Forall_inv in Lc. rewrite lexed_text by exact Lc. split; [unfold encode; cbn; now rewrite app_nil_r | apply subseq_refl].
    - exists [tr t]. apply Forall_inv_tail, Forall_inv in Lc. rewrite lexed_text by exact Lc. split; [unfold encode; cbn; now rewrite app_nil_r | cbn; apply sub_drop, subseq_refl].
    - exists []. split; [reflexivity | constructor]. }
  destruct C as (u1 & -> & S1). exists (map tr u ++ u1 ++ u2). rewrite !encode_app, (text_lexed u Lu). split; [reflexivity|]. rewrite !rs_app. apply subseq_app; [apply subseq_refl|]. now apply subseq_app.
Qed.

Lemma qstring_subseq w v : r_qstring w v -> Forall lexed w -> exists u, v = encode u /\ subseq u (rs w).
Proof.
  intros (q1 & m & u & q2 & -> & _ & _ & H & _) L. inversion_clear L as [|? ? _ L1]. apply Forall_app in L1 as [L1 _]. destruct (qvalue_subseq m v H L1) as (x & -> & S). exists x. split; [reflexivity|].
  rewrite rs_cons, rs_app. apply sub_drop. now apply subseq_l.
Qed.

(** characters of [w], in order *)
Definition taken (x : list rune) (v : gostring) : Prop := exists u, v = encode u /\ subseq u x.
(** some part of [x] is an encoded word that is decoded *)
Definition decodes (rd : charset_reader) (x : list rune) : Prop := exists u v, part u x /\ word_decode rd (encode u) = Some v.

Lemma taken_app x y v w : taken x v -> taken y w -> taken (x ++ y) (v ++ w).
Proof. intros (u & -> & S) (u' & -> & S'). exists (u ++ u'). split; [now rewrite encode_app | now apply subseq_app]. Qed.
Lemma taken_nil x : taken x [].
Proof. exists []. split; [reflexivity | constructor]. Qed.
Lemma taken_mid x y z v : taken y v -> taken (x ++ y ++ z) v.
Proof. intros H. rewrite <- (app_nil_r v). change (v ++ []) with ([] ++ v ++ []). apply taken_app; [apply taken_nil|]. apply taken_app; [exact H | apply taken_nil]. Qed.
Lemma taken_text w : Forall lexed w -> taken (rs w) (text w).
Proof. intros L. exists (rs w). split; [now apply text_lexed | apply subseq_refl]. Qed.
Lemma decodes_mid rd x y z : decodes rd y -> decodes rd (x ++ y ++ z).
Proof. intros (u & v & (a & b & ->) & H). exists u, v. split; [exists (x ++ a), (b ++ z); now rewrite <- !app_assoc | exact H]. Qed.
Lemma decodes_l rd x y : decodes rd x -> decodes rd (x ++ y).
Proof. apply (decodes_mid rd []). Qed.
Lemma decodes_r rd x y : decodes rd y -> decodes rd (x ++ y).
Proof. intros H. rewrite <- (app_nil_r y). now apply decodes_mid. Qed.

Lemma encs_taken rd w v : r_encs rd w v -> Forall lexed w -> taken (rs w) v \/ decodes rd (rs w).
Proof.
  assert (ONE : forall w, Forall lexed w -> taken (rs w) (encoded_word_value rd (text w)) \/ decodes rd (rs w)).
  { intros x L. unfold encoded_word_value. rewrite (text_lexed x L). destruct (word_decode rd (encode (map tr x))) as [v1|] eqn:D.
    - right. exists (rs x), v1. split; [exists [], []; now rewrite app_nil_r | exact D].
    - left. exists (rs x). split; [reflexivity | apply subseq_refl]. }
  induction 1; intros L; rewrite ?rs_app.
  - apply Forall_app in L as [_ L]. apply Forall_app in L as [L _]. destruct (ONE _ L); [left; now apply taken_mid | right; now apply decodes_mid].
  - apply Forall_app in L as [_ L]. apply Forall_app in L as [L1 L]. apply Forall_app in L as [_ L].
    destruct (ONE _ L1) as [Q2|Q2]; [|right; now apply decodes_mid].
    destruct (IHr_encs L) as [Q3|Q3].
    + left. rewrite <- (app_nil_l (_ ++ v)). apply taken_app; [apply taken_nil|]. apply taken_app; [exact Q2|]. rewrite <- (app_nil_l v). apply taken_app; [apply taken_nil | exact Q3].
    + right. now do 3 apply decodes_r.
Qed.

Lemma word_taken rd k w v : r_word rd k w v -> Forall lexed w -> taken (rs w) v \/ decodes rd (rs w).
Proof.
  intros H L. destruct H.
  - now apply encs_taken.
  - left. rewrite !rs_app. apply Forall_app in L as [_ L]. apply Forall_app in L as [L _]. now apply taken_mid, taken_text.
  - left. rewrite !rs_app. apply Forall_app in L as [_ L]. apply Forall_app in L as [L _]. apply taken_mid. eapply qstring_subseq; eauto.
Qed.

Lemma obslocal_taken rd w l : r_obslocal rd w l -> Forall lexed w -> taken (rs w) (join (bs ".") l) \/ decodes rd (rs w).
Proof.
  induction 1 as [k w v H|k w v p w' l H Hp H' IH]; intros L; [now apply (word_taken rd k)|].
  apply Forall_app in L as [L1 L2]. inversion L2 as [|? ? Lp L3]; subst. rewrite rs_app, rs_cons.
  destruct (word_taken rd k w v H L1) as [T|T]; [|right; now apply decodes_l].
  destruct (IH L3) as [T'|T']; [left | right; apply decodes_r; now apply (decodes_r rd [tr p])].
  assert (E : join (bs ".") (v :: l) = v ++ bs "." ++ join (bs ".") l) by (destruct H'; reflexivity). rewrite E. apply taken_app; [exact T|].
  apply (taken_app [tr p]); [|exact T']. exists [46%N]. rewrite (tok_char T_Period 46%N p); [|vm_compute; reflexivity | reflexivity | discriminate | exact Lp | exact Hp]. split; [reflexivity | apply subseq_refl].
Qed.

(** What the local part of an address is made of; [x] is its text in the input: a dot-atom is taken
    verbatim, a quoted string loses its quotes and backslashes, and only text that is neither and
    contains an encoded word can be decoded. *)
Definition plain_local (x : list rune) (c : list rune) : Prop := dot_atom c /\ exists g g', ogap g /\ ogap g' /\ x = g ++ c ++ g'.
Definition local_part_of (rd : charset_reader) (x : list rune) (l : gostring) : Prop :=
  (exists c, dot_atom c /\ part c x /\ l = encode c) \/
  (In 34%N x /\ taken x l) \/
  ((forall c, ~ plain_local x c) /\ (taken x l \/ decodes rd x)).

(** The address is an addr-spec of the input, its local part [x] followed by "@" in the input *)
Definition from_local_part (rd : charset_reader) (s : gostring) (a : gostring) : Prop :=
  exists x l d, part (x ++ [64%N]) (kept s) /\ a = l ++ bs "@" ++ d /\ local_part_of rd x l.

Lemma local_parts rd w v : Forall lexed w -> r_local rd w v -> local_part_of rd (rs w) v.
Proof.
  intros L R. destruct R as [u a u' Hu Ha Hu'|u q u' v' Hu Hq Hu'|w' l Ho N].
  - left. exists (rs a). apply Forall_app in L as [L1 L]. apply Forall_app in L as [L L2]. split; [now apply lang_dotAtom|]. split; [|now apply text_lexed].
    exists (rs u), (rs u'). now rewrite !rs_app.
  - right. left. apply Forall_app in L as [_ L]. apply Forall_app in L as [L _]. split.
    + destruct Hq as (q1 & m & u1 & q2 & -> & Hq1 & _). rewrite !rs_app, rs_cons. apply in_app_iff. right. apply in_app_iff. left. left. apply Forall_inv in L.
      apply (tok_char T_DQuote 34%N q1); [vm_compute; reflexivity | reflexivity | discriminate | exact L | exact Hq1].
    + rewrite !rs_app. apply taken_mid. now apply qstring_subseq.
  - right. right. split; [|now apply obslocal_taken]. intros c (Hc & g & g' & Hg & Hg' & E). apply N.
    assert (T : w' = toks g ++ toks c ++ toks g') by (rewrite <- !toks_app, <- E; now apply lexed_toks). rewrite T. cbn [seqs].
    apply lang_seq_i; [now apply gap_cfws|]. apply lang_seq_i; [now apply lang_dotAtom_i | now apply gap_cfws].
Qed.

Lemma addrspec_parts rd w v p q : Forall lexed w -> r_addrspec rd w v -> forall s, kept s = p ++ rs w ++ q -> from_local_part rd s v.
Proof.
  intros L H s E. destruct H as [wl l a wd d Hl Ha Hd|wl l a wd d c po Hl Ha Hd Hc Hp]; apply Forall_app in L as [L1 L2]; inversion L2 as [|? ? La _]; subst.
  all: assert (A : tr a = 64%N) by (apply (tok_char T_At 64%N a); [vm_compute; reflexivity | reflexivity | discriminate | exact La | exact Ha]).
  all: rewrite rs_app, rs_cons, A in E.
  - exists (rs wl), l, d. split; [|split; [reflexivity | now apply local_parts]]. exists p, (rs wd ++ q). rewrite E. now rewrite <- !app_assoc.
  - exists (rs wl), l, (d ++ bs ":" ++ text po). split; [|split; [reflexivity | now apply local_parts]]. exists p. eexists. rewrite E. repeat (rewrite <- app_assoc; cbn [app]). reflexivity.
Qed.

Lemma angle_parts rd w v p q : Forall lexed w -> r_angle rd w v -> forall s, kept s = p ++ rs w ++ q -> v = [] \/ from_local_part rd s v.
Proof.
  intros L H s E. destruct H; [right | now left | right].
  - apply Forall_app in L as [_ L]. apply Forall_inv_tail in L. apply Forall_app in L as [L _].
    apply (addrspec_parts rd s0 a (p ++ rs u ++ [tr lt]) ([tr gt] ++ rs u' ++ q) L); [assumption|]. rewrite E. rewrite rs_app, rs_cons, rs_app, rs_cons. repeat (rewrite <- app_assoc; cbn [app]). reflexivity.
  - apply Forall_app in L as [_ L]. apply Forall_inv_tail in L. apply Forall_app in L as [_ L]. apply Forall_app in L as [L _].
    apply (addrspec_parts rd s0 a (p ++ rs u ++ [tr lt] ++ rs r) ([tr gt] ++ rs u' ++ q) L); [assumption|]. rewrite E. rewrite rs_app, rs_cons, !rs_app, rs_cons. repeat (rewrite <- app_assoc; cbn [app]). reflexivity.
Qed.

Lemma mailbox_parts rd w a p q : Forall lexed w -> r_mailbox rd w a -> forall s, kept s = p ++ rs w ++ q -> a_address a = [] \/ from_local_part rd s (a_address a).
Proof.
  intros L H s E. destruct H; cbn [a_address].
  - apply Forall_app in L as [_ L]. eapply (angle_parts rd wa a (p ++ rs wn) q L); [assumption|]. rewrite E, rs_app. repeat (rewrite <- app_assoc; cbn [app]). reflexivity.
  - eapply angle_parts; eauto.
  - right. eapply addrspec_parts; eauto.
Qed.

(** Every address returned comes from an addr-spec of the input: a local part that is a dot-atom or
    a quoted string is never decoded; only one that is neither and contains an encoded word is. *)
Theorem C30_local_parts : forall e s sl, ParseAddressList e s = Ret sl None ->
  Forall (fun a => a_address a = [] \/ from_local_part (reader (wenv_of e)) s (a_address a)) (elems sl).
Proof.
  intros e s sl H. destruct s as [|b s]; [cbn in H; injection H as <-; constructor|]. set (s' := b :: s) in *.
  apply reading in H as [L R]; [|discriminate].
  apply (all_addresses _ (fun a => a_address a = [] \/ from_local_part (reader (wenv_of e)) s' (a_address a)) (fun w => Forall lexed w /\ part (rs w) (kept s'))) in R; [exact R | | |].
  - intros x y [Lx (p & q & E)]. apply Forall_app in Lx as [L1 L2]. rewrite rs_app in E. split; split; auto.
    + exists p, (rs y ++ q). rewrite E. now rewrite <- !app_assoc.
    + exists (p ++ rs x), q. rewrite E. now rewrite <- !app_assoc.
  - intros w a [Lw (p & q & E)] Ha. eapply mailbox_parts; eauto.
  - split; [exact L|]. exists [], []. rewrite rs_toks. cbn. now rewrite app_nil_r.
Qed.

(** But a local part that is neither is decoded: the address may then hold an "@", a comma, or a line
    break that is not in the input. *)
Theorem C30_fails : exists s1 s2,
  ParseAddressList env0 s1 = Ret (Some [mkAddr [] (bs "a@b,@c")]) None /\ (length (filter (N.eqb 64) s1) = 1)%nat /\
  ParseAddressList env0 s2 = Ret (Some [mkAddr [] ([13; 10; 44]%N ++ bs "@c")]) None /\ ~ In 13%N s2 /\ ~ In 10%N s2.
Proof.
  exists (bs "=?utf-8?Q?a=40b,?=@c"), (bs "=?utf-8?Q?=0D=0A,?=@c"). split; [vm_compute; reflexivity|]. split; [reflexivity|]. split; [vm_compute; reflexivity|].
  split; cbn; intuition discriminate.
Qed.

(** every ASCII character of a returned address is in the input *)
Definition never_decoded : Prop := forall e s l, ParseAddressList e s = Ret (Some l) None ->
  forall a c, In a l -> (c < 128)%N -> In c (a_address a) -> In c s.

Theorem C30_not_in_general : ~ never_decoded.
Proof.
  intros H. destruct C30_fails as (_ & s2 & _ & _ & E & _ & N). apply N. eapply H; [exact E | left; reflexivity | reflexivity | right; left; reflexivity].
Qed.
