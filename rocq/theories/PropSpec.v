(** C08: an addr-spec without comments and white space is returned as it is, whatever its atoms look like. *)
From Coq Require Import String List NArith ZArith Bool Arith Lia.
From Verif Require Import Lexer Grammar Utf8 Strs Mime GoTime Parser Walker Api Spec ParserFacts
  WalkerFacts Static Total Cfws LangFacts LexFacts Utf8Facts First DateSpec AddrSpec Chosen AddrSem CharFacts PropApi PropInv
  ScanSpec AddrText MboxList TextLang PropText.
Import ListNotations.

(** tokens of an addr-spec without white space *)
Definition spec_types : list ttype := Eval vm_compute in (types R_atext ++ [T_Period; T_At]).
Definition specw (w : word) : Prop := Forall (fun t => In (tt t) spec_types) w.

Lemma specw_app u v : specw (u ++ v) <-> specw u /\ specw v.
Proof. apply Forall_app. Qed.

Lemma specw_cons t v : specw (t :: v) <-> memb (tt t) spec_types = true /\ specw v.
Proof. unfold specw. rewrite memb_In. split; [inversion 1; auto | intros []; now constructor]. Qed.

Lemma spec_no_cfws u : specw u -> opt_cfws u -> u = [].
Proof.
  intros H C. destruct u as [|t u]; [reflexivity|]. exfalso. apply first_lang in C. apply specw_cons in H as [Ht _].
  assert (D : forallb (fun a => negb (memb a spec_types)) (first (Opt (Nt R_cfws))) = true) by (vm_compute; reflexivity).
  rewrite forallb_forall in D. specialize (D _ C). now rewrite Ht in D.
Qed.

Ltac cut_specw := repeat match goal with
  | H : specw (_ ++ _) |- _ => apply specw_app in H as [? ?]
  | H : specw (_ :: _) |- _ => apply specw_cons in H as [? ?]
  end.

Ltac absent := exfalso; match goal with H : tt ?t = _, H' : memb (tt ?t) spec_types = true |- _ => rewrite H in H'; vm_compute in H'; discriminate H' end.

Lemma spec_qstring q v : specw q -> ~ r_qstring q v.
Proof. intros H (q1 & m & u & q2 & -> & Hq & _). cut_specw. absent. Qed.

Lemma spec_tail P seps t l : r_tail P seps t l -> incl seps [T_Comma; T_Semicolon] -> specw t -> t = [] /\ l = [].
Proof.
  intros [|k x l1 w l2 Hk _ _|k x w l1 Hk _ _] I1 H; auto; exfalso; apply specw_cons in H as [H _]; apply I1 in Hk; destruct Hk as [Hk|[Hk|[]]]; rewrite <- Hk in H; vm_compute in H; discriminate H.
Qed.

Lemma spec_junk j : specw j -> junk j -> j = [].
Proof.
  intros H C. destruct j as [|t u]; [reflexivity|]. exfalso. apply first_lang in C. apply specw_cons in H as [Ht _].
  assert (D : forallb (fun a => negb (memb a spec_types)) (first (Star (seqs [Opt (Nt R_cfws); Tok T_Comma]))) = true) by (vm_compute; reflexivity).
  rewrite forallb_forall in D. specialize (D _ C). now rewrite Ht in D.
Qed.

Lemma spec_angle rd w a : specw w -> ~ r_angle rd w a.
Proof. intros H A. destruct A as [u lt s a' gt u' _ Hl _ _ _|u lt gt u' _ Hl _ _|u lt r s a' gt u' _ Hl _ _ _ _]; cut_specw; absent. Qed.

Lemma spec_mailbox rd w m : specw w -> r_mailbox rd w m -> exists a, m = mkAddr [] a /\ r_addrspec rd w a.
Proof.
  intros H M. destruct M as [wn n wa a _ Ha|wa a Ha|w' a Ha]; cut_specw; [exfalso; eapply spec_angle; eauto | exfalso; eapply spec_angle; eauto|]. eauto.
Qed.

Lemma spec_list rd w l : specw w -> r_list (r_address rd) [T_Comma; T_Semicolon] w l -> exists a, l = [mkAddr [] a] /\ r_addrspec rd w a.
Proof.
  intros H (j & x & l1 & t & l2 & -> & J & Hx & Ht & ->). cut_specw. rewrite (spec_junk j) by assumption. destruct (spec_tail _ _ _ _ Ht) as [-> ->]; auto; [now intros ?|].
  cbn [app]. rewrite !app_nil_r. destruct Hx as [w m Hm|w l Hg _].
  - apply spec_mailbox in Hm as (a & -> & Ha); auto. eauto.
  - destruct Hg as (q1 & wn & n & c & wl & q2 & sc & u & -> & _ & _ & Hc & _). cut_specw. absent.
Qed.

Lemma at_unique (u v u' v' : word) a a' : (forall t, In t u -> tt t <> T_At) -> (forall t, In t v -> tt t <> T_At) -> tt a = T_At -> tt a' = T_At ->
  u ++ a :: v = u' ++ a' :: v' -> u = u' /\ v = v'.
Proof.
  revert u'. induction u as [|t u IH]; intros u' Hu Hv Ha Ha' E; destruct u' as [|t' u']; cbn in E; injection E as E1 E2.
  - auto.
  - exfalso. subst. apply (Hv a'); [apply in_app_iff; right; now left | exact Ha'].
  - exfalso. subst. apply (Hu a'); [now left | exact Ha'].
  - subst. destruct (IH u') as [-> ->]; auto. intros t Ht. apply Hu. now right.
Qed.

Lemma spec_local rd w v : specw w -> lang (Nt R_dotAtom) w -> r_local rd w v -> v = text w.
Proof.
  intros H D R. destruct R as [u a u' Hu Ha Hu'|u q u' v' Hu Hq Hu'|w' l Ho N]; cut_specw.
  - assert (u = []) as -> by (now apply spec_no_cfws). assert (u' = []) as -> by (now apply spec_no_cfws). cbn [app]. now rewrite app_nil_r.
  - exfalso. eapply spec_qstring; [|exact Hq]. assumption.
  - exfalso. apply N. cbn [seqs]. rewrite <- (app_nil_l w'), <- (app_nil_r w'). apply lang_seq_i; [apply lang_opt_none|]. apply lang_seq_i; [exact D | apply lang_opt_none].
Qed.

Lemma spec_domain w v : specw w -> r_domain w v -> v = text w.
Proof. intros H R. destruct R as [u m u' Hu _ Hu']. cut_specw. assert (u = []) as -> by (now apply spec_no_cfws). assert (u' = []) as -> by (now apply spec_no_cfws). cbn [app]. now rewrite app_nil_r. Qed.

Lemma dots_no_at d t : dot_atom d -> In t (toks d) -> tt t <> T_At.
Proof.
  intros H Ht E. pose proof (alphabet_lang _ _ (lang_dotAtom_i d H)) as A. rewrite Forall_forall in A. specialize (A t Ht). rewrite E in A. apply memb_In in A. vm_compute in A. discriminate A.
Qed.

Lemma dots_specw d : dot_atom d -> specw (toks d).
Proof.
  intros H. apply Forall_forall. intros t Ht. pose proof (alphabet_lang _ _ (lang_dotAtom_i d H)) as A. rewrite Forall_forall in A. specialize (A t Ht).
  assert (D : forallb (fun a => memb a spec_types) (alphabet (Nt R_dotAtom)) = true) by (vm_compute; reflexivity). rewrite forallb_forall in D. now apply memb_In, D.
Qed.

(** C08: whatever the atoms look like. *)
Theorem C08_addr_spec_round_trip : forall e s l d, dot_atom l -> dot_atom d -> decode s = l ++ bs "@" ++ d ->
  ParseAddressList e s = Ret (Some [mkAddr [] (encode (l ++ bs "@" ++ d))]) None.
Proof.
  intros e s l d Hl Hd D. assert (B : bmps (l ++ bs "@" ++ d)) by (apply bmps_app; split; [now apply dot_bmps|]; apply bmps_app; split; [repeat constructor | now apply dot_bmps]).
  assert (K : kept s = l ++ bs "@" ++ d) by (now apply PropText.kept_bmp). assert (Hs : s <> []) by (intros ->; cbn in D; destruct l; discriminate D).
  assert (At : tt (tok_of 64%N) = T_At) by reflexivity.
  assert (T : toks (l ++ bs "@" ++ d) = toks l ++ tok_of 64%N :: toks d) by (rewrite toks_app; reflexivity).
  destruct (proj2 (C04_accepts_grammar e s Hs)) as [sl P].
  - rewrite (tokens_text e s _ D B). rewrite T. apply lang_nt_i. change (body R_addressList) with g_addressList. unfold g_addressList. cbn [alts seqs]. fold g_item. apply lang_altl.
    apply lang_seq_i; [|apply lang_seq_nil; [apply lang_star_nil | apply lang_cls_i; now left]]. apply mailbox_address, lang_nt_i. change (body R_mailbox) with g_mailbox. unfold g_mailbox. cbn [alts]. apply lang_altr.
    apply lang_nt_i. change (body R_addrSpec) with g_addrSpec. unfold g_addrSpec. cbn [seqs]. apply lang_seq_i.
    + apply lang_nt_i. change (body R_localPart) with g_localPart. unfold g_localPart. cbn [alts seqs]. apply lang_altl. apply lang_seq_nil; [apply lang_opt_none|]. rewrite <- (app_nil_r (toks l)). apply lang_seq_i; [now apply lang_dotAtom_i | apply lang_opt_none].
    + change (tok_of 64%N :: toks d) with ([tok_of 64%N] ++ toks d). apply lang_seq_i; [apply lang_cls_i; now left|]. rewrite <- (app_nil_r (toks d)). apply lang_seq_i; [|apply lang_opt_none].
      apply lang_nt_i. change (body R_domain) with g_domain. unfold g_domain. cbn [alts seqs]. apply lang_altl. apply lang_seq_nil; [apply lang_opt_none|]. rewrite <- (app_nil_r (toks d)). apply lang_seq_i; [now apply lang_dotAtom_i | apply lang_opt_none].
  - rewrite P. f_equal. assert (EL : elems sl = [mkAddr [] (encode (l ++ bs "@" ++ d))]); [|destruct sl as [l0|]; [cbn in EL; now subst | discriminate EL]]. destruct (reading e s sl Hs P) as [L R]. rewrite K in *.
    assert (S : specw (toks (l ++ bs "@" ++ d))) by (rewrite T; apply specw_app; split; [now apply dots_specw|]; apply specw_cons; split; [vm_compute; reflexivity | now apply dots_specw]).
    destruct (spec_list _ _ _ S R) as (a & -> & Ha). f_equal. f_equal. rewrite T in *. remember (toks l ++ tok_of 64%N :: toks d) as w eqn:Ew.
    destruct Ha as [wl v a0 wd dv Rl A0 Rd|wl v a0 wd dv c p Rl A0 Rd Hc _].
    + symmetry in Ew. destruct (at_unique _ _ _ _ _ _ (fun t => dots_no_at l t Hl) (fun t => dots_no_at d t Hd) At A0 Ew) as [<- <-]. cut_specw.
      rewrite (spec_local _ _ _ (dots_specw l Hl) (lang_dotAtom_i l Hl) Rl), (spec_domain _ _ (dots_specw d Hd) Rd). rewrite !text_toks by (now apply dot_bmps). unfold at_join. now rewrite !encode_app.
    + exfalso. cut_specw. absent.
Qed.

Lemma atom_dots a : a <> [] -> forallb atext_char a = true -> dot_atom a.
Proof. intros N F. exists [a]. split; [discriminate|]. split; [repeat constructor; auto; apply Forall_forall; now apply forallb_forall | left; reflexivity]. Qed.

Example C08_met : ParseAddressList env0 (bs "=?utf-8?Q?a?=.b@c") = Ret (Some [mkAddr [] (bs "=?utf-8?Q?a?=.b@c")]) None.
Proof.
  apply (C08_addr_spec_round_trip env0 _ (bs "=?utf-8?Q?a?=.b") (bs "c")); [|apply atom_dots; [discriminate | reflexivity] | reflexivity].
  exists [bs "=?utf-8?Q?a?="; bs "b"]. split; [discriminate|]. split; [|left; reflexivity]. constructor; [|constructor; [|constructor]]; (split; [discriminate | apply Forall_forall; apply forallb_forall; reflexivity]).
Qed.
