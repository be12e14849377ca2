(** Lists of addresses and groups. *)
From Coq Require Import String List NArith ZArith Bool Arith Lia.
From Verif Require Import Lexer Grammar Utf8 Strs Mime GoTime Parser Walker Api Spec ParserFacts
  WalkerFacts Static Cfws LangFacts LexFacts Utf8Facts DateSpec First AddrSpec AddrSem CharFacts ScanSpec ScanFacts ScanEnc ScanWords ScanName ScanAddr ScanBox.
Import ListNotations.

(** ** Pieces *)
Lemma pieces_cons x l : x <> ESep -> exists p ps, pieces l = p :: ps /\ pieces (x :: l) = (x :: p) :: ps.
Proof.
  intros H. assert (N : exists p ps, pieces l = p :: ps).
  { destruct l as [|y l]; cbn [pieces]; eauto. destruct y; eauto; destruct (pieces l); eauto. }
  destruct N as (p & ps & E). exists p, ps. split; [exact E|]. cbn [pieces]. rewrite E. destruct x; try reflexivity. congruence.
Qed.

Lemma pieces_noSep A l : noSep A -> exists p ps, pieces l = p :: ps /\ pieces (A ++ l) = (A ++ p) :: ps.
Proof.
  induction 1 as [|x A Hx H IH]; cbn [app].
  - destruct (pieces_cons EG l) as (p & ps & E & _); [discriminate|]. eauto.
  - destruct IH as (p & ps & E & E'). destruct (pieces_cons x (A ++ l) Hx) as (p' & ps' & E1 & E2). exists p, ps. split; [exact E|].
    rewrite E2. congruence.
Qed.

Lemma pieces_one A : noSep A -> pieces A = [A].
Proof. intros H. destruct (pieces_noSep A [] H) as (p & ps & E & E'). cbn in E. injection E as <- <-. now rewrite !app_nil_r in E'. Qed.

Lemma pieces_sep A B : pieces (A ++ ESep :: B) = pieces A ++ pieces B.
Proof.
  induction A as [|x A IH]; [reflexivity|]. cbn [app]. cbn [pieces]. rewrite IH.
  destruct (pieces_cons EG A) as (p & ps & E & _); [discriminate|]. rewrite E. destruct x; reflexivity.
Qed.

Lemma elements_sep rd A B : elements rd (A ++ ESep :: B) = elements rd A ++ elements rd B.
Proof. unfold elements. now rewrite pieces_sep, flat_map_app. Qed.

Lemma noSep_gaps k : noSep (repeat EG k).
Proof. apply (only_noSep []), only_gaps. Qed.

Lemma without_gaps c k : without c (repeat EG k).
Proof. apply (only_without []); [apply only_gaps | intros []]. Qed.

Lemma ungroup_gaps k : ungroup (repeat EG k) = repeat EG k.
Proof. unfold ungroup. now rewrite cut_none by apply without_gaps. Qed.

Lemma elements_gaps rd k : elements rd (repeat EG k) = [].
Proof.
  unfold elements. rewrite pieces_one by apply noSep_gaps. cbn [flat_map]. unfold element. now rewrite ungroup_gaps, gaps_repeat.
Qed.

Lemma elements_one rd A : noSep A -> elements rd A = element rd A.
Proof. intros H. unfold elements. rewrite pieces_one by assumption. cbn [flat_map]. apply app_nil_r. Qed.

(** ** The first piece of a list, where a group's colon may precede it *)
Definition headok (L : list emit) : Prop :=
  forall p ps, pieces L = p :: ps -> port_like p = false /\ ungroup p = p.

Lemma headok_sep A B : headok A -> headok (A ++ ESep :: B).
Proof.
  intros H p ps. rewrite pieces_sep. destruct (pieces_cons EG A) as (q & qs & E & _); [discriminate|]. rewrite E. cbn [app]. intros [= <- _]. now apply (H q qs).
Qed.

Lemma headok_gaps k : headok (repeat EG k).
Proof. intros p ps. rewrite pieces_one by apply noSep_gaps. intros [= <- <-]. split; [destruct k; reflexivity | apply ungroup_gaps]. Qed.

Lemma group_head rd N L : noSep N -> without 58%N N -> without 60%N N -> headok L -> elements rd (N ++ ES 58%N :: L) = elements rd L.
Proof.
  intros H1 H2 H3 H. destruct (pieces_noSep (N ++ [ES 58%N]) L) as (p & ps & E & E').
  { apply Forall_app. split; [exact H1 | constructor; [discriminate | constructor]]. }
  rewrite <- app_assoc in E'. cbn [app] in E'. unfold elements. rewrite E, E'. cbn [flat_map]. f_equal. destruct (H p ps E) as [P1 P2].
  unfold element. rewrite P2. rewrite <- app_assoc. cbn [app]. unfold ungroup. rewrite cut_some by exact H2. rewrite cut_none by exact H3. now rewrite P1.
Qed.

(** ** Going on after a part *)
Lemma takeA_cfws u z : opt_cfws u -> Forall lexed u -> takeA z = [] -> takeA (rs u ++ z) = [].
Proof.
  intros H L T. destruct (emits_cfws u H L) as (k & R & Z & _). destruct k as [|k]; [now rewrite (Z eq_refl)|].
  eapply takeA_head; [apply (R false) | discriminate | exact I].
Qed.

Definition listsep (t : tok) : Prop := tt t = T_Comma \/ tt t = T_Semicolon.

Lemma sep_rune t : lexed t -> listsep t -> In (tr t) [44; 59]%N.
Proof. intros L [H|H]; [tokc t 44%N; now left | tokc t 59%N; right; now left]. Qed.

Lemma takeA_sep t z : lexed t -> listsep t -> takeA (tr t :: z) = [].
Proof. intros L H. apply sep_rune in H; [|exact L]. destruct H as [<-|[<-|[]]]; reflexivity. Qed.

Lemma runs_sep t x m E : lexed t -> listsep t -> runs_to (MN false) x m E -> runs_to (MN false) (tr t :: x) m (ESep :: E).
Proof.
  intros L H R. change (ESep :: E) with ([ESep] ++ E). eapply runs_step; [|exact R]. now apply step_sep, sep_rune.
Qed.

Lemma tamed_sep b t x : lexed t -> listsep t -> tamed b (MN false) (tr t :: x) -> tamed b (MN false) x.
Proof.
  intros L H K. apply (tamed_runs b (MN false) [tr t] x (MN false) [ESep]); [|exact K]. apply runs_sep; auto using runs_nil.
Qed.

Lemma one_fold_app x y : one_fold (x ++ y) -> one_fold x /\ one_fold y.
Proof. intros H. split; [exact (one_fold_sub [] x y H)|]. apply (one_fold_sub x y []). now rewrite app_nil_r. Qed.

Section lists.
  Variables (rd : charset_reader) (b : bool).

  (** What a part of the input that stands for some addresses is scanned to. *)
  Definition scans (hb : bool) (w : word) (l : list addr) (E : list emit) : Prop :=
    runs_to (MN false) (rs w) (MN false) E /\ forall k, elements rd (E ++ repeat EG k) = l /\ (hb = true -> headok (E ++ repeat EG k)).

  Definition scanned (hb : bool) (P : word -> list addr -> Prop) : Prop := forall w l rest, P w l -> Forall lexed w -> takeA rest = [] ->
    tamed b (MN false) (rs w ++ rest) -> (b = true -> one_fold (rs w)) -> exists E, scans hb w l E.

  Lemma mbox1_scanned : scanned true (r_mbox1 rd).
  Proof.
    intros w l rest (m & H & ->) L _ K O. destruct (mailbox_scan rd w m H L b rest K O) as (E & R & V & U & (r & Hr) & S).
    exists E. split; [exact R|]. intros k. assert (S' : noSep (E ++ repeat EG k)) by (apply Forall_app; split; [exact S | apply noSep_gaps]). split.
    - rewrite elements_one by exact S'. unfold element. rewrite U, V. rewrite (gaps_In _ (ES r)); [reflexivity | apply in_app_iff; now left | reflexivity].
    - intros _ p ps. rewrite pieces_one by exact S'. intros [= <- <-]. split; [|apply U]. apply (port_like_special _ r), in_app_iff. now left.
  Qed.

  Lemma tail_scan hb P seps : scanned hb P -> (forall t, In t seps -> t = T_Comma \/ t = T_Semicolon) ->
    forall w l, r_tail P seps w l -> forall rest, Forall lexed w -> takeA rest = [] ->
    tamed b (MN false) (rs w ++ rest) -> (b = true -> one_fold (rs w)) ->
    takeA (rs w ++ rest) = [] /\ exists F, runs_to (MN false) (rs w) (MN false) F /\
      ((F = [] /\ l = []) \/ exists F', F = ESep :: F' /\ forall k, elements rd (F' ++ repeat EG k) = l).
  Proof.
    intros HP Hs w l H. induction H as [|t x l w l' Ht Hx H IH|t x w l' Ht Hx H IH]; intros rest L T K O.
    - split; [exact T|]. exists []. split; [apply runs_nil | now left].
    - inversion L as [|? ? Lt L1]; subst. apply Forall_app in L1 as [L1 L2]. apply Hs in Ht. rewrite rs_cons, rs_app in *. cbn [app] in *.
      rewrite <- app_assoc in *.
      assert (O1 : b = true -> one_fold (rs x) /\ one_fold (rs w)).
      { intros Hb. specialize (O Hb). apply (one_fold_app [tr t]) in O as [_ O]. now apply one_fold_app in O. }
      split; [now apply takeA_sep|]. apply tamed_sep in K; [|exact Lt | exact Ht].
      assert (TW : takeA (rs w ++ rest) = []).
      { clear - H T L2 Hs. destruct H as [|t x l w l' Ht Hx H|t x w l' Ht Hx H]; [exact T| |];
          inversion L2; subst; rewrite rs_cons; cbn [app]; now apply takeA_sep; [|apply Hs]. }
      destruct (HP x l (rs w ++ rest) Hx L1 TW K) as (E & R & V); [intros Hb; now apply O1|].
      destruct (IH rest L2 T) as (_ & F & RF & VF).
      { eapply tamed_runs; [exact R | exact K]. }
      { intros Hb. now apply O1. }
      exists (ESep :: E ++ F). split; [apply runs_sep; auto; eapply runs_app; eassumption|]. right. exists (E ++ F). split; [reflexivity|]. intros k.
      destruct VF as [[-> ->]|(F' & -> & VF)].
      + rewrite !app_nil_r. apply V.
      + rewrite <- app_assoc. cbn [app]. rewrite elements_sep, VF. destruct (V 0) as [V0 _]. cbn [repeat] in V0. rewrite app_nil_r in V0. now rewrite V0.
    - inversion L as [|? ? Lt L1]; subst. apply Forall_app in L1 as [L1 L2]. apply Hs in Ht. rewrite rs_cons, rs_app in *. cbn [app] in *.
      rewrite <- app_assoc in *.
      assert (O1 : b = true -> one_fold (rs w)).
      { intros Hb. specialize (O Hb). apply (one_fold_app [tr t]) in O as [_ O]. now apply one_fold_app in O. }
      split; [now apply takeA_sep|]. apply tamed_sep in K; [|exact Lt | exact Ht].
      destruct (emits_cfws x Hx L1) as (j & R & _).
      assert (TW : takeA (rs w ++ rest) = []).
      { clear - H T L2 Hs. destruct H as [|t x l w l' Ht Hx H|t x w l' Ht Hx H]; [exact T| |];
          inversion L2; subst; rewrite rs_cons; cbn [app]; now apply takeA_sep; [|apply Hs]. }
      destruct (IH rest L2 T) as (_ & F & RF & VF); [eapply tamed_runs; [apply (R false) | exact K] | exact O1|].
      exists (ESep :: repeat EG j ++ F). split; [apply runs_sep; auto; eapply runs_app; [apply R | exact RF]|]. right. exists (repeat EG j ++ F). split; [reflexivity|]. intros k.
      destruct VF as [[-> ->]|(F' & -> & VF)].
      + rewrite app_nil_r, <- repeat_app. apply elements_gaps.
      + rewrite <- app_assoc. cbn [app]. rewrite elements_sep, VF, elements_gaps. reflexivity.
  Qed.

  Lemma junk_scan j : junk j -> Forall lexed j -> forall z, tamed b (MN false) (rs j ++ z) -> exists J, runs_to (MN false) (rs j) (MN false) J /\
    tamed b (MN false) z /\
    (forall E, elements rd (J ++ E) = elements rd E) /\ (J = [] \/ exists k J', J = repeat EG k ++ ESep :: J').
  Proof.
    intros H. apply lang_star_inv in H as (us & -> & Hus). induction Hus as [|u us Hu Hus IH]; intros L z K; cbn [concat] in *.
    - exists []. split; [apply runs_nil|]. auto.
    - apply Forall_app in L as [L1 L2]. cbn [seqs] in Hu. apply lang_seq in Hu as (c & d & -> & Hc & Hd). apply lang_cls in Hd as (t & -> & [Et|[]]).
      apply Forall_app in L1 as [L1 Lt]. apply Forall_inv in Lt. destruct (emits_cfws c Hc L1) as (k & R & _).
      assert (Ht : listsep t) by (left; now symmetry).
      rewrite !rs_app, <- !app_assoc in *. cbn [rs map app] in *. fold (rs (concat us)) in *.
      assert (K' : tamed b (MN false) (rs (concat us) ++ z)).
      { apply (tamed_sep b t); [exact Lt | exact Ht|]. eapply tamed_runs; [apply (R false) | exact K]. }
      destruct (IH L2 z K') as (J & RJ & KJ & VJ & SJ).
      exists (repeat EG k ++ ESep :: J). split; [eapply runs_app; [apply R | now apply runs_sep]|]. split; [exact KJ|]. split; [|right; eauto].
      intros E. rewrite <- app_assoc. cbn [app]. now rewrite elements_sep, elements_gaps, VJ.
  Qed.

  Lemma list_scan hb P seps : scanned hb P -> (forall t, In t seps -> t = T_Comma \/ t = T_Semicolon) -> scanned hb (r_list P seps).
  Proof.
    intros HP Hs w l rest (j & x & l1 & t & l2 & -> & Hj & Hx & Ht & ->) L T K O.
    apply Forall_app in L as [Lj L]. apply Forall_app in L as [Lx Lt]. rewrite !rs_app, <- !app_assoc in *.
    assert (O1 : b = true -> one_fold (rs x) /\ one_fold (rs t)).
    { intros Hb. specialize (O Hb). apply one_fold_app in O as [_ O]. now apply one_fold_app in O. }
    destruct (junk_scan j Hj Lj _ K) as (J & RJ & KJ & VJ & SJ).
    assert (TW : takeA (rs t ++ rest) = []).
    { clear - Ht T Lt Hs. destruct Ht as [|t x l w l' Ht Hx H|t x w l' Ht Hx H]; [exact T| |];
        inversion Lt; subst; rewrite rs_cons; cbn [app]; now apply takeA_sep; [|apply Hs]. }
    destruct (HP x l1 (rs t ++ rest) Hx Lx TW KJ) as (E & R & V); [intros Hb; now apply O1|].
    destruct (tail_scan hb P seps HP Hs t l2 Ht rest Lt T) as (_ & F & RF & VF).
    { eapply tamed_runs; [exact R | exact KJ]. }
    { intros Hb. now apply O1. }
    exists (J ++ E ++ F). split; [rewrite !rs_app; eapply runs_app; [exact RJ|]; eapply runs_app; eassumption|]. intros k.
    assert (V' : elements rd ((E ++ F) ++ repeat EG k) = l1 ++ l2 /\ (hb = true -> headok ((E ++ F) ++ repeat EG k))).
    { destruct VF as [[-> ->]|(F' & -> & VF)].
      - rewrite !app_nil_r. apply V.
      - rewrite <- app_assoc. cbn [app]. rewrite elements_sep, VF. destruct (V 0) as [V0 H0]. cbn [repeat] in V0, H0. rewrite app_nil_r in V0, H0. rewrite V0.
        split; [reflexivity|]. intros Hb. now apply headok_sep, H0. }
    rewrite <- app_assoc, VJ. split; [apply V'|]. intros Hb. destruct SJ as [->|(k' & J' & ->)]; [cbn [app]; now apply V'|].
    rewrite <- app_assoc. cbn [app]. apply headok_sep, headok_gaps.
  Qed.

  Lemma obsgroup_scan w rest : lang (Nt R_obsGroupList) w -> Forall lexed w -> takeA rest = [] -> tamed b (MN false) (rs w ++ rest) ->
    exists E, scans true w [] E.
  Proof.
    intros H L T K. apply lang_nt in H. change (body R_obsGroupList) with g_obsGroupList in H. unfold g_obsGroupList in H. cbn [seqs] in H.
    apply lang_seq in H as (j & u & -> & Hj & Hu).
    assert (HJ : junk j).
    { unfold Plus in Hj. apply lang_seq in Hj as (j1 & j2 & -> & H1 & H2). unfold junk. now apply lang_star_cons. }
    apply Forall_app in L as [Lj Lu]. rewrite rs_app, <- app_assoc in K. destruct (junk_scan j HJ Lj _ K) as (J & RJ & KJ & VJ & SJ).
    destruct (emits_cfws u Hu Lu) as (k & R & _). exists (J ++ repeat EG k). split; [rewrite rs_app; eapply runs_app; [exact RJ | apply R]|].
    intros k2. rewrite <- app_assoc, VJ, <- repeat_app. split; [apply elements_gaps|]. intros _.
    destruct SJ as [->|(k' & J' & ->)]; [apply headok_gaps|]. rewrite <- app_assoc. cbn [app]. apply headok_sep, headok_gaps.
  Qed.

  Lemma grouplist_scanned : scanned true (r_grouplist rd).
  Proof.
    intros w l rest H L T K O. destruct H as [|w l H|w H|w H].
    - exists []. split; [apply runs_nil|]. intros k. split; [apply elements_gaps | intros _; apply headok_gaps].
    - eapply (list_scan true (r_mbox1 rd) [T_Comma] mbox1_scanned); eauto. intros t [<-|[]]. now left.
    - destruct (emits_cfws w (lang_opt_some _ _ H) L) as (k & R & _). exists (repeat EG k). split; [apply R|]. intros k2. rewrite <- repeat_app.
      split; [apply elements_gaps | intros _; apply headok_gaps].
    - now apply (obsgroup_scan w rest).
  Qed.

  (** groups without stray double quotes *)
  Definition r_group0 (w : word) (l : list addr) : Prop :=
    exists wn n c wl sc u, w = wn ++ c :: wl ++ sc ++ u /\ r_display rd wn n /\ tt c = T_Colon /\ r_grouplist rd wl l /\
      opt_tok T_Semicolon sc /\ opt_cfws u.

  Definition r_address0 (w : word) (l : list addr) : Prop := r_mbox1 rd w l \/ r_group0 w l.

  Lemma group0_scanned : scanned false r_group0.
  Proof.
    intros w l rest (wn & n & c & wl & sc & u & -> & Hn & Hc & Hl & Hs & Hu) L T K O.
    apply Forall_app in L as [Ln L]. inversion L as [|? ? Lc L1]; subst. apply Forall_app in L1 as [Ll L1]. apply Forall_app in L1 as [Ls Lu].
    rewrite rs_app, rs_cons, !rs_app in *. rewrite <- !app_assoc in K. cbn [app] in K. rewrite <- !app_assoc in K.
    tokc c 58%N.
    assert (O1 : b = true -> one_fold (rs wn) /\ one_fold (rs wl)).
    { intros Hb. specialize (O Hb). apply one_fold_app in O as [O1 O]. apply (one_fold_app [58%N]) in O as [_ O]. now apply one_fold_app in O. }
    set (z := rs wl ++ rs sc ++ rs u ++ rest) in *.
    destruct (display_scan rd b false (58%N :: z) wn n Hn Ln K) as (N & RN & _ & DN); [intros Hb; now apply O1|].
    apply disp_only in DN.
    assert (K1 : tamed b (MN false) z).
    { apply (tamed_runs _ _ _ _ _ _ (RN false)) in K. exact (tamed_next b (MN false) [58%N] z K). }
    assert (TS : takeA (rs sc ++ rs u ++ rest) = []).
    { destruct Hs as [->|(t & -> & Et)]; [change (takeA (rs u ++ rest) = []); now apply takeA_cfws|]. apply Forall_inv in Ls. cbn [rs map app]. apply takeA_sep; [exact Ls | now right]. }
    destruct (grouplist_scanned wl l (rs sc ++ rs u ++ rest) Hl Ll TS K1) as (E & R & V); [intros Hb; now apply O1|].
    destruct (emits_cfws u Hu Lu) as (k & RU & _).
    assert (X : exists F, runs_to (MN false) (rs sc) (MN false) F /\ (F = [] \/ F = [ESep])).
    { destruct Hs as [->|(t & -> & Et)]; [exists []; split; [apply runs_nil | now left]|]. apply Forall_inv in Ls. exists [ESep]. split; [|now right].
      apply runs_sep; [exact Ls | now right | apply runs_nil]. }
    destruct X as (F & RF & SF). exists (N ++ ES 58%N :: E ++ F ++ repeat EG k). split.
    - rewrite rs_app, rs_cons, !rs_app, H. eapply runs_app; [apply RN|]. change (ES 58%N :: E ++ F ++ repeat EG k) with ([ES 58%N] ++ E ++ F ++ repeat EG k).
      eapply runs_step; [reflexivity|]. eapply runs_app; [exact R|]. eapply runs_app; [exact RF | apply RU].
    - intros j. split; [|discriminate]. rewrite <- app_assoc. cbn [app]. rewrite <- !app_assoc, <- repeat_app.
      assert (G : elements rd (E ++ F ++ repeat EG (k + j)) = l /\ headok (E ++ F ++ repeat EG (k + j))).
      { destruct SF as [->| ->]; cbn [app].
        - destruct (V (k + j)) as [V1 V2]. auto.
        - destruct (V 0) as [V1 V2]. cbn [repeat] in V1, V2. rewrite app_nil_r in V1, V2. split; [now rewrite elements_sep, V1, elements_gaps, app_nil_r | now apply headok_sep, V2]. }
      destruct G as [G1 G2]. rewrite group_head; [exact G1 | exact (only_noSep _ _ DN) | | | exact G2].
      + apply (only_without [46%N; 64%N]); [exact DN | cbn [In]; intuition discriminate].
      + apply (only_without [46%N; 64%N]); [exact DN | cbn [In]; intuition discriminate].
  Qed.

  Lemma address0_scanned : scanned false r_address0.
  Proof.
    intros w l rest [H|H] L T K O.
    - destruct (mbox1_scanned w l rest) as (E & R & V); auto. exists E. split; [exact R|]. intros k. split; [apply V | discriminate].
    - now apply (group0_scanned w l rest).
  Qed.

  (** addresses in a text without double quotes or without colons *)
  Lemma address_address0 w l : r_address rd w l -> Forall lexed w -> ~ In 34%N (rs w) \/ ~ In 58%N (rs w) -> r_address0 w l.
  Proof.
    intros H L N. destruct H as [w m H|w l (q1 & wn & n & c & wl & q2 & sc & u & -> & Hq1 & Hn & Hc & Hl & Hq2 & Hs & Hu) _]; [left; now exists m|].
    destruct N as [NQ|N].
    - right. assert (QN : forall q, opt_tok T_DQuote q -> (forall t, In t q -> In t (q1 ++ wn ++ c :: wl ++ q2 ++ sc ++ u)) -> q = []).
      { intros q [->|(t & -> & Et)] Hin; [reflexivity|]. exfalso. apply NQ. specialize (Hin t (or_introl eq_refl)).
        rewrite Forall_forall in L. pose proof (L t Hin) as Lt. tokc t 34%N. change 34%N with (id 34%N); unfold id; rewrite <- H; now apply in_map. }
      assert (Q1 : q1 = []) by (apply QN; [exact Hq1|]; intros t Ht; apply in_app_iff; now left).
      assert (Q2 : q2 = []).
      { apply QN; [exact Hq2|]. intros t Ht. rewrite !in_app_iff. right. right. right. rewrite !in_app_iff. tauto. }
      subst q1 q2. cbn [app]. exists wn, n, c, wl, sc, u. auto 10.
    - exfalso. apply N. apply Forall_app in L as [_ L]. apply Forall_app in L as [_ L]. apply Forall_inv in L. rewrite !rs_app, rs_cons. tokc c 58%N. rewrite !in_app_iff. right. right. now left.
  Qed.

  Lemma address_scanned : scanned false (fun w l => r_address rd w l /\ (~ In 34%N (rs w) \/ ~ In 58%N (rs w))).
  Proof. intros w l rest [H N] L T K O. apply (address0_scanned w l rest); auto. now apply address_address0. Qed.
End lists.
