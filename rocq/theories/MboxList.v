(** A list of mailboxes is read as that list: the parser prefers a mailbox where one is possible, and
    where a mailbox ends is determined by the text. *)
From Coq Require Import String List NArith ZArith Bool Arith Lia.
From Verif Require Import Lexer Grammar Utf8 Strs Mime GoTime Parser Walker Api Spec ParserFacts
  WalkerFacts Static Total Cfws LangFacts LexFacts Utf8Facts First DateSpec AddrSpec Chosen AddrSem CharFacts PropApi PropInv
  ScanSpec ScanFacts ScanEnc ScanWords ScanName ScanAddr ScanBox ScanList PropScan.
Import ListNotations.

Lemma lexed_ok t : lexed t -> tok_ok t.
Proof. intros H. unfold tok_ok. right. right. exact H. Qed.

Lemma lang_r_mailbox rd w : lang (Nt R_mailbox) w -> Forall lexed w -> exists m, r_mailbox rd w m.
Proof.
  intros H L. destruct (sel_exists (Nt R_mailbox) (eq []) w) as (f & w' & S & <-).
  - apply wfg_nt.
  - apply dec_nil.
  - exists w, []. rewrite app_nil_r. auto.
  - pose proof (sel_sound _ _ _ _ _ S) as [D E]. rewrite app_nil_r in E. pose proof (chosen_i _ _ _ _ _ S eq_refl) as C.
    apply chosen_nt in C as (ch & -> & C). rewrite yields_node in E.
    destruct (den_mailbox (mkWenv 0 rd) ch C) as (n & a & _ & R); [unfold toks_ok; rewrite <- E; eapply Forall_impl; [|exact L]; apply lexed_ok|].
    cbn [reader] in R. rewrite <- E in R. eauto.
Qed.

(** ** Where a mailbox ends *)
Lemma mailbox_no_eof w : lang (Nt R_mailbox) w -> ~ In eof_tok w.
Proof.
  intros H Hin. apply alphabet_lang in H. rewrite Forall_forall in H. apply H in Hin. apply memb_In in Hin. revert Hin.
  change (memb T_EOF (alphabet (Nt R_mailbox)) = true -> False). vm_compute. discriminate.
Qed.

(** the end of the input or a separator *)
Definition stops (w : word) : Prop := match w with [] => True | t :: _ => listsep t end.

Lemma prefix_cmp {A} (x y u v : list A) : x ++ u = y ++ v -> (exists z, y = x ++ z /\ u = z ++ v) \/ (exists z, x = y ++ z /\ v = z ++ u).
Proof.
  revert y. induction x as [|a x IH]; intros y H.
  - left. exists y. auto.
  - destruct y as [|b y].
    + right. exists (a :: x). auto.
    + cbn in H. injection H as -> H. destruct (IH y H) as [(z & -> & ->)|(z & -> & ->)]; [left | right]; exists z; auto.
Qed.

Section ends.
  Variable b : bool.
  (** where the scanner's side conditions hold *)
  Definition okw (w : word) : Prop := Forall lexed w /\ tamed b (MN false) (rs w) /\ (b = true -> one_fold (rs w)).

  Lemma okw_prefix x u m rd : okw (x ++ u) -> r_mailbox rd x m ->
    exists E, runs_to (MN false) (rs x) (MN false) E /\ noSep E.
  Proof.
    intros (L & K & O) H. apply Forall_app in L as [L _]. rewrite rs_app in K, O.
    destruct (mailbox_scan rd x m H L b (rs u) K) as (E & R & _ & _ & _ & S); [intros Hb; now apply O, one_fold_app in Hb|]. eauto.
  Qed.

  Lemma okw_next x t u m rd : okw (x ++ t :: u) -> r_mailbox rd x m -> listsep t -> okw u.
  Proof.
    intros HO Hm Ht. destruct (okw_prefix x (t :: u) m rd HO Hm) as (E & R & _). destruct HO as (L & K & O).
    apply Forall_app in L as [_ L]. inversion L as [|? ? Lt Lu]; subst. split; [exact Lu|]. rewrite rs_app in K, O. split.
    - apply (tamed_runs _ _ _ _ _ _ R) in K. now apply (tamed_sep b t).
    - intros Hb. specialize (O Hb). apply one_fold_app in O as [_ O]. now apply (one_fold_app [tr t]) in O.
  Qed.

  Lemma no_inner_stop rd x z q m m' : okw (x ++ z ++ q) -> r_mailbox rd (x ++ z) m -> r_mailbox rd x m' -> stops (z ++ q) -> z = [].
  Proof.
    intros HO Hm Hm' Hz. destruct z as [|t z]; [reflexivity|]. exfalso. cbn [app stops] in Hz.
    destruct (okw_prefix x ((t :: z) ++ q) m' rd HO Hm') as (E & R & _).
    destruct (okw_prefix (x ++ t :: z) q m rd) as (F & RF & SF); [now rewrite <- app_assoc | exact Hm|].
    destruct HO as (L & _). apply Forall_app in L as [_ L]. inversion L as [|? ? Lt _]; subst.
    apply runs_em in RF. rewrite rs_app, rs_cons, em_app, (runs_mo _ _ _ _ R), (runs_em _ _ _ _ R), em_cons, step_sep in RF by now apply sep_rune.
    cbn [snd fst app] in RF. subst F. apply Forall_app in SF as [_ SF]. inversion SF. congruence.
  Qed.

  Lemma same_end x u y v : okw (x ++ u) -> lang (Nt R_mailbox) x -> lang (Nt R_mailbox) y -> x ++ u = y ++ v -> stops u -> stops v -> x = y /\ u = v.
  Proof.
    intros HO Hx Hy E Su Sv. set (rd := None : charset_reader).
    assert (Lx : Forall lexed x) by (destruct HO as (L & _); now apply Forall_app in L).
    assert (Ly : Forall lexed y) by (destruct HO as (L & _); rewrite E in L; now apply Forall_app in L).
    destruct (lang_r_mailbox rd x Hx Lx) as [mx Rx]. destruct (lang_r_mailbox rd y Hy Ly) as [my Ry].
    destruct (prefix_cmp x y u v E) as [(z & -> & ->)|(z & -> & ->)].
    - assert (z = []); [|subst; now rewrite app_nil_r]. now apply (no_inner_stop rd x z v my mx).
    - assert (z = []); [|subst; now rewrite app_nil_r]. rewrite <- app_assoc in HO. now apply (no_inner_stop rd y z u mx my).
  Qed.

  (** ** The selected tree *)
  Definition g_item : gexp := Seq (Cls [T_Comma; T_Semicolon]) (Nt R_address).

  (** mailboxes after separators *)
  Inductive mtail : word -> Prop :=
  | mt_nil : mtail []
  | mt_cons : forall t x w, listsep t -> lang (Nt R_mailbox) x -> mtail w -> mtail (t :: x ++ w).

  Lemma mtail_stops w : mtail w -> stops w.
  Proof. intros H. destruct H; [exact I | assumption]. Qed.

  Lemma sep_in t : listsep t -> In (tt t) [T_Comma; T_Semicolon].
  Proof. intros [-> | ->]; [now left | right; now left]. Qed.

  Lemma in_sep t : In (tt t) [T_Comma; T_Semicolon] -> listsep t.
  Proof. intros [H|[H|[]]]; [left | right]; auto. Qed.

  Lemma mailbox_address x : lang (Nt R_mailbox) x -> lang (Nt R_address) x.
  Proof. intros H. apply lang_nt_i. change (body R_address) with g_address. unfold g_address. cbn [alts]. now apply lang_altl. Qed.

  Lemma mtail_lang w : mtail w -> lang (Star g_item) w.
  Proof.
    induction 1 as [|t x w Ht Hx H IH]; [apply lang_star_nil|]. change (t :: x ++ w) with (([t] ++ x) ++ w). apply lang_star_cons; [|exact IH].
    apply lang_seq_i; [apply lang_cls_i; now apply sep_in | now apply mailbox_address].
  Qed.

  Definition at_end : word -> Prop := viable (Tok T_EOF) (eq []).

  Lemma at_end_eof : at_end [eof_tok].
  Proof. exists [eof_tok], []. split; [reflexivity|]. split; [|reflexivity]. apply lang_cls_i. now left. Qed.

  (** an address followed by the rest of a list *)
  Lemma sel_one e s V w f w1 x u : sel (Nt R_address) V w f w1 -> w = (x ++ u) ++ [eof_tok] -> okw (x ++ u) -> lang (Nt R_mailbox) x -> stops u -> V (u ++ [eof_tok]) ->
    (forall v, V v -> exists k v', v = k :: v' /\ (listsep k \/ tt k = T_EOF)) ->
    w1 = u ++ [eof_tok] /\ exists s' l, feeds e (NAddressList s) f = NAddressList s' /\ elems s' = elems s ++ l /\ r_mbox1 (reader e) x l.
  Proof.
    intros S Ew HO Hx Su Hu HV. subst w. inversion S as [| |r V' w0 f0 w0' S1| | | | |]; subst. change (body R_address) with g_address in S1. unfold g_address in S1. cbn [alts] in S1.
    assert (Hv : viable (Nt R_mailbox) V ((x ++ u) ++ [eof_tok])) by (exists x, (u ++ [eof_tok]); rewrite <- app_assoc; auto).
    inversion S1 as [| | | |a0 b0 V0 w2 f1 w2' Hv' S2|a0 b0 V0 w2 f1 w2' Hv' S2| |]; subst; [|contradiction].
    pose proof (sel_keeps _ _ _ _ _ S2 Hv) as V1. pose proof (sel_sound _ _ _ _ _ S2) as [D E].
    pose proof (chosen_i _ _ _ _ _ S2 V1) as C. apply chosen_nt in C as (c & -> & C). rewrite yields_node in E.
    assert (Hy : lang (Nt R_mailbox) (yields c)) by (exists [Node R_mailbox c]; split; [exact D | apply yields_node]).
    destruct (HV w1 V1) as (k & v' & -> & Hk).
    (* the end-of-input token is in the rest *)
    assert (Z : exists v0, k :: v' = v0 ++ [eof_tok] /\ x ++ u = yields c ++ v0).
    { destruct (prefix_cmp (x ++ u) (yields c) [eof_tok] (k :: v') E) as [(z & E1 & E2)|(z & E1 & E2)].
      - destruct z as [|k0 z]; [|exfalso; apply (mailbox_no_eof _ Hy)].
        + exists []. rewrite E1, !app_nil_r. split; [now rewrite E2 | reflexivity].
        + rewrite E1, in_app_iff. right. injection E2 as <- E2. now left.
      - exists z. split; [exact E2 | exact E1]. }
    destruct Z as (v0 & Ev & E0).
    assert (Sv : stops v0).
    { destruct v0 as [|k0 v0]; [exact I|]. cbn in Ev. injection Ev as -> Ev. cbn. destruct Hk as [Hk|Hk]; [exact Hk|].
      exfalso. destruct HO as (L & _). rewrite E0 in L. apply Forall_app in L as [_ L]. apply Forall_inv, lex_types in L as [L _]. now apply L. }
    destruct (same_end x u (yields c) v0 HO Hx Hy E0 Su Sv) as [Ex ->]. split; [exact Ev|].
    assert (Lx : Forall lexed x) by (destruct HO as (L & _); now apply Forall_app in L).
    destruct (den_mailbox e c C) as (n & a & F & R); [unfold toks_ok; rewrite <- Ex; eapply Forall_impl; [|exact Lx]; apply lexed_ok|].
    exists (append s [mkAddr n a]), [mkAddr n a]. rewrite (feeds_node e _ R_address _ (NAddress None) None) by reflexivity.
    rewrite (feeds_node e _ R_mailbox c (NMailbox [] []) None) by reflexivity. rewrite F. cbn [give].
    split; [reflexivity|]. split; [apply elems_append|]. exists (mkAddr n a). rewrite Ex. auto.
  Qed.

  Definition okw_tail (w : word) : Prop := match w with [] => True | _ :: u => okw u end.

  Lemma okw_split x w : okw (x ++ w) -> lang (Nt R_mailbox) x -> stops w -> okw_tail w.
  Proof.
    intros HO Hx Hw. destruct w as [|t u]; [exact I|]. cbn in *.
    assert (Lx : Forall lexed x) by (destruct HO as (L & _); now apply Forall_app in L).
    destruct (lang_r_mailbox None x Hx Lx) as [mx Rx]. eapply okw_next; eauto.
  Qed.

  Lemma rest_head v : viable (Star g_item) at_end v -> exists k v', v = k :: v' /\ (listsep k \/ tt k = T_EOF).
  Proof.
    intros (p & q & -> & Hp & Hq). apply lang_star_inv in Hp as (us & -> & Hus). destruct Hus as [|u us Hu Hus].
    - destruct Hq as (q1 & q2 & -> & H1 & <-). apply lang_cls in H1 as (t & -> & [Ht|[]]). exists t, []. auto.
    - apply lang_seq in Hu as (k & y & -> & Hk & _). apply lang_cls in Hk as (t & -> & Ht). cbn [concat app]. exists t. eexists. split; [reflexivity|]. left. now apply in_sep.
  Qed.

  Lemma mtail_viable w : mtail w -> viable (Star g_item) at_end (w ++ [eof_tok]).
  Proof. intros H. exists w, [eof_tok]. split; [reflexivity|]. split; [now apply mtail_lang | apply at_end_eof]. Qed.

  Lemma sel_tail e w : mtail w -> okw_tail w -> forall s f w', sel (Star g_item) at_end (w ++ [eof_tok]) f w' ->
    w' = [eof_tok] /\ exists s' l, feeds e (NAddressList s) f = NAddressList s' /\ elems s' = elems s ++ l /\
      r_tail (r_mbox1 (reader e)) [T_Comma; T_Semicolon] w l.
  Proof.
    induction 1 as [|t x w Ht Hx H IH]; intros HO s f w' Sf.
    - inversion Sf as [| | | | | |a0 V0 w0 f1 w1 f2 w2 Hv S1 S2|a0 V0 w0 Hv]; subst.
      + exfalso. destruct Hv as (p & q & E & Hp & _). apply lang_seq in Hp as (k & y & -> & Hk & _). apply lang_cls in Hk as (k0 & -> & Hk).
        cbn in E. injection E as <- _. cbn in Hk. destruct Hk as [Hk|[Hk|[]]]; discriminate.
      + split; [reflexivity|]. exists s, []. rewrite app_nil_r. split; [reflexivity|]. split; [reflexivity | constructor].
    - cbn [okw_tail] in HO.
      assert (Hv : viable g_item (viable (Star g_item) at_end) ((t :: x ++ w) ++ [eof_tok])).
      { exists ([t] ++ x), (w ++ [eof_tok]). split; [cbn; now rewrite <- app_assoc|]. split; [|now apply mtail_viable].
        apply lang_seq_i; [apply lang_cls_i; now apply sep_in | now apply mailbox_address]. }
      inversion Sf as [| | | | | |a0 V0 w0 f1 w1 f2 w2 Hv' S1 S2|a0 V0 w0 Hv']; subst; [|contradiction].
      inversion S1 as [| | |a1 b1 V1 w0 g1 w3 g2 w4 A1 A2| | | |]; subst. inversion A1; subst.
      assert (V1 : viable (Star g_item) at_end (w ++ [eof_tok])) by now apply mtail_viable.
      destruct (sel_one e s _ _ _ _ x w A2 eq_refl HO Hx (mtail_stops w H) V1 rest_head) as (-> & s1 & l1 & F1 & E1 & R1).
      destruct (IH (okw_split x w HO Hx (mtail_stops w H)) s1 f2 w' S2) as (-> & s2 & l2 & F2 & E2 & R2).
      split; [reflexivity|]. exists s2, (l1 ++ l2). rewrite <- app_assoc, !feeds_app. cbn [app]. rewrite (feeds_one e _ (Leaf t)). change (feed e (NAddressList s) (Leaf t)) with (NAddressList s). rewrite F1, F2.
      split; [reflexivity|]. split; [rewrite E2, E1; now rewrite app_assoc|]. apply rt_item; [now apply sep_in | exact R1 | exact R2].
  Qed.

  Lemma sel_list e x w ch : okw (x ++ w) -> lang (Nt R_mailbox) x -> mtail w ->
    selected R_addressList ((x ++ w) ++ [eof_tok]) (Node R_addressList ch) ->
    r_list (r_mbox1 (reader e)) [T_Comma; T_Semicolon] (x ++ w) (elems (list_value e ch)).
  Proof.
    intros HO Hx Hw S. inversion S as [| |r V' w0 f0 w0' S1| | | | |]; subst. change (body R_addressList) with g_addressList in S1. unfold g_addressList in S1. cbn [alts seqs] in S1.
    fold g_item in S1.
    assert (V1 : viable (Seq (Star g_item) (Tok T_EOF)) (eq []) (w ++ [eof_tok])).
    { exists (w ++ [eof_tok]), []. rewrite app_nil_r. split; [reflexivity|]. split; [|reflexivity]. apply lang_seq_i; [now apply mtail_lang | apply lang_cls_i; now left]. }
    assert (Hv : viable (Seq (Nt R_address) (Seq (Star g_item) (Tok T_EOF))) (eq []) ((x ++ w) ++ [eof_tok])).
    { exists ((x ++ w) ++ [eof_tok]), []. rewrite app_nil_r. split; [reflexivity|]. split; [|reflexivity]. rewrite <- app_assoc.
      apply lang_seq_i; [now apply mailbox_address|]. apply lang_seq_i; [now apply mtail_lang | apply lang_cls_i; now left]. }
    inversion S1 as [| | | |a0 b0 V0 w2 f1 w2' Hv' S2|a0 b0 V0 w2 f1 w2' Hv' S2| |]; subst; [|contradiction].
    inversion S2 as [| | |a1 b1 V2 w0 f1 w3 f2 w4 A1 A2| | | |]; subst.
    assert (RH : forall v, viable (Seq (Star g_item) (Tok T_EOF)) (eq []) v -> exists k v', v = k :: v' /\ (listsep k \/ tt k = T_EOF)).
    { intros v (p & q & -> & Hp & <-). rewrite app_nil_r. apply rest_head. apply lang_seq in Hp as (p1 & p2 & -> & H1 & H2). exists p1, p2.
      split; [reflexivity|]. split; [exact H1|]. exists p2, []. rewrite app_nil_r. auto. }
    destruct (sel_one e None _ _ _ _ x w A1 eq_refl HO Hx (mtail_stops w Hw) V1 RH) as (-> & s1 & l1 & F1 & E1 & R1).
    inversion A2 as [| | |a1 b1 V2 w0 f3 w3 f4 w4 B1 B2| | | |]; subst.
    destruct (sel_tail e w Hw (okw_split x w HO Hx (mtail_stops w Hw)) s1 f3 w3 B1) as (-> & s2 & l2 & F2 & E2 & R2).
    inversion B2; subst. exists [], x, l1, w, l2. split; [reflexivity|]. split; [apply lang_star_nil|]. split; [exact R1|]. split; [exact R2|].
    unfold list_value. rewrite !feeds_app, F1, F2. cbn [feeds fold_left feed]. rewrite E2, E1. reflexivity.
  Qed.
End ends.

(** Acceptance and value of a list of mailboxes. *)
Theorem mailbox_list_value e s b x w : s <> [] -> tokens e s = (x ++ w) ++ [eof_tok] -> okw b (x ++ w) -> lang (Nt R_mailbox) x -> mtail w ->
  exists sl, ParseAddressList e s = Ret sl None /\ elems sl = addresses_of (reader (wenv_of e)) (rs (x ++ w)).
Proof.
  intros Hs T HO Hx Hw. destruct (parse_address_list_cases e s) as [[E _]|[[_ [N _]]|[_ [ch [S [D [Y [K H1]]]]]]]].
  - contradiction.
  - exfalso. apply N. rewrite T. apply lang_nt_i. change (body R_addressList) with g_addressList. unfold g_addressList. cbn [alts seqs]. fold g_item. apply lang_altl.
    rewrite <- app_assoc. apply lang_seq_i; [now apply mailbox_address|]. apply lang_seq_i; [now apply mtail_lang | apply lang_cls_i; now left].
  - exists (list_value (wenv_of e) ch). split; [exact H1|]. rewrite T in S. apply (sel_list b (wenv_of e)) in S; auto.
    destruct HO as (L & KK & O). eapply (list_value_scan _ b); [|exact S | exact L | exact KK | exact O].
    intros w0 l0 rest0 A1 A2 A3 A4 A5. destruct (mbox1_scanned (reader (wenv_of e)) b w0 l0 rest0 A1 A2 A3 A4 A5) as (E & R & V). exists E. split; [exact R|]. intros k. split; [apply V | discriminate].
Qed.

