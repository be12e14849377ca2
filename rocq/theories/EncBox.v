(** How addresses are read: the local part, the domain and the brackets have only one extent. *)
From Coq Require Import String List NArith ZArith Bool Arith Lia.
From Verif Require Import Lexer Grammar Utf8 Strs Mime GoTime Parser Walker Api Spec ParserFacts
  WalkerFacts Static Total Cfws LangFacts LexFacts Utf8Facts First DateSpec AddrSpec Chosen AddrSem CharFacts PropApi PropInv
  ScanSpec ScanFacts ScanEnc ScanWords ScanName EncAlign EncSel.
Import ListNotations.

Definition adott (t : tok) : Prop := In (tt t) (T_Period :: types R_atext).
Definition no_pair (s : word) : Prop := forall p x y q, s = p ++ x :: y :: q -> tt x = T_Equal -> tt y = T_Question -> False.

Definition tlocal (l : word) (v : gostring) : Prop :=
  (lang (Nt R_dotAtom) l /\ v = text l /\ no_pair l) \/ (lang (Nt R_quotedString) l /\ r_qstring l v).
Definition tdomain (d : word) : Prop := (lang (Nt R_dotAtom) d /\ no_pair d) \/ lang (Nt R_domainLiteral) d.

Lemma adott_alpha g w : lang g w -> subset (alphabet g) (T_Period :: types R_atext) = true -> Forall adott w.
Proof. intros L S. apply alphabet_lang in L. eapply Forall_impl; [|exact L]. intros t Ht. eapply subset_In; eassumption. Qed.

Lemma dotAtom_adott m : lang (Nt R_dotAtom) m -> Forall adott m.
Proof. intros H. apply (adott_alpha _ _ H). vm_compute. reflexivity. Qed.

Lemma obsDomain_adott m : lang (Nt R_obsDomain) m -> Forall adott m.
Proof. intros H. apply (adott_alpha _ _ H). vm_compute. reflexivity. Qed.

(** first tokens, computed *)
Lemma head_of g w S : lang g w -> nullable g = false -> subset (first g) S = true -> exists t w', w = t :: w' /\ memb (tt t) S = true.
Proof.
  intros L N H. destruct w as [|t w]; [apply lang_nullable in L; congruence|]. exists t, w. split; [reflexivity|].
  apply memb_In. eapply subset_In; [exact H|]. now apply first_lang in L.
Qed.

Lemma dotAtom_head m : lang (Nt R_dotAtom) m -> exists t m', m = t :: m' /\ memb (tt t) (types R_atext) = true.
Proof. intros H. apply (head_of _ _ _ H); vm_compute; reflexivity. Qed.
Lemma obsDomain_head m : lang (Nt R_obsDomain) m -> exists t m', m = t :: m' /\ memb (tt t) (types R_atext) = true.
Proof. intros H. apply (head_of _ _ _ H); vm_compute; reflexivity. Qed.
Lemma literal_head m : lang (Nt R_domainLiteral) m -> exists t m', m = t :: m' /\ tt t = T_LBracket.
Proof.
  intros H. destruct (head_of _ _ [T_LBracket] H) as (t & m' & -> & K); [vm_compute; reflexivity | vm_compute; reflexivity|].
  exists t, m'. split; [reflexivity|]. apply memb_In in K as [K|[]]. auto.
Qed.

(** the first token is not an atom character or period *)
Definition no_adot (x : word) : Prop := match x with t :: _ => ~ adott t | [] => True end.

Lemma adott_solid t x : adott t -> solid (t :: x).
Proof.
  intros H. cbn [solid]. assert (G : forallb (fun y => negb (memb y gap_start)) (T_Period :: types R_atext) = true) by (vm_compute; reflexivity).
  rewrite forallb_forall in G. specialize (G _ H). now destruct (memb (tt t) gap_start).
Qed.

Lemma atext_adott t : memb (tt t) (types R_atext) = true -> adott t.
Proof. intros H. right. now apply memb_In. Qed.

Lemma gap_no_adot u y : opt_cfws u -> no_adot y -> no_adot (u ++ y).
Proof.
  intros U Y. destruct u as [|t u]; [exact Y|]. cbn [app no_adot]. intros A. apply (solid_no t u u U). now apply adott_solid.
Qed.

Lemma not_adott t : memb (tt t) (T_Period :: types R_atext) = false -> ~ adott t.
Proof. intros H A. unfold adott in A. apply memb_In in A. rewrite A in H. discriminate. Qed.

Lemma not_adott_ty t ty : tt t = ty -> memb ty (T_Period :: types R_atext) = false -> ~ adott t.
Proof. intros <-. apply not_adott. Qed.

(** ** Local parts *)
Lemma word_in rd k w v s t r y : r_word rd k w v -> w ++ y = s ++ t :: r -> Forall lx (s ++ t :: r) -> Forall adott s -> no_pair s ->
  tt t = T_At -> Forall adott w /\ exists s', s = w ++ s'.
Proof.
  intros H E F A N Et.
  assert (Sr : solid (s ++ t :: r)).
  { destruct s as [|a s]; [cbn [app solid]; now rewrite Et|]. inversion A; subst. cbn [app]. now apply adott_solid. }
  assert (Na : ~ adott t) by (apply (not_adott_ty t _ Et); vm_compute; reflexivity).
  destruct H as [w v H|u a u' U L U' _|u q u' v U Q U'].
  - exfalso. assert (X : exists u e x, w = u ++ e ++ x /\ opt_cfws u /\ lang (Nt R_encodedWord) e) by (destruct H; eauto 8).
    destruct X as (u & e & x & -> & U & L). rewrite <- !app_assoc in E. symmetry in E.
    destruct (gap_none _ _ _ Sr U F E) as [-> E']. destruct (encoded_head e L) as (a & b & e' & -> & Ea & Eb). cbn [app] in E'.
    destruct s as [|s1 [|s2 s]]; cbn [app] in E'.
    + injection E' as -> _. rewrite Ea in Et. discriminate.
    + injection E' as -> -> _. rewrite Eb in Et. discriminate.
    + injection E' as -> -> _. exact (N [] s1 s2 s eq_refl Ea Eb).
  - rewrite <- !app_assoc in E. symmetry in E. destruct (gap_none _ _ _ Sr U F E) as [-> E']. cbn [app] in *.
    assert (Aa : Forall adott a) by (apply (adott_alpha (Nt R_atom) a L); vm_compute; reflexivity).
    destruct (app_cases _ _ _ _ E') as [(z & -> & K)|(z & -> & K)].
    + destruct z as [|b z].
      * cbn [app] in K. apply Forall_app in F as [_ F].
        destruct (gap_none (t :: r) u' y) as [-> _]; auto; [cbn [solid]; now rewrite Et|]. rewrite !app_nil_r. split; [now rewrite app_nil_r in Aa|]. exists []. now rewrite app_nil_r.
      * exfalso. cbn [app] in K. injection K as <- _. apply Forall_app in Aa as [_ Aa]. inversion Aa; subst. auto.
    + assert (Sz : solid (z ++ t :: r)).
      { destruct z as [|b z]; [cbn [app solid]; now rewrite Et|]. apply Forall_app in A as [_ A]. inversion A; subst. cbn [app]. now apply adott_solid. }
      rewrite <- app_assoc in F. apply Forall_app in F as [_ F].
      destruct (gap_none (z ++ t :: r) u' y) as [-> _]; auto. rewrite app_nil_r. split; [exact Aa|]. exists z. reflexivity.
  - exfalso. rewrite <- !app_assoc in E. symmetry in E. destruct (gap_none _ _ _ Sr U F E) as [-> E'].
    destruct Q as (q1 & m & u0 & q2 & -> & Q1 & _). cbn [app] in E'. destruct s as [|a s]; cbn [app] in E'; injection E' as <- _.
    + rewrite Q1 in Et. discriminate.
    + inversion A as [|? ? Aa]; subst. apply (not_adott_ty q1 _ Q1) in Aa; [exact Aa | vm_compute; reflexivity].
Qed.

Lemma no_pair_app p s : no_pair (p ++ s) -> no_pair s.
Proof. intros N a x y q ->. apply (N (p ++ a) x y q). now rewrite <- app_assoc. Qed.

Lemma obs_in rd w l : r_obslocal rd w l -> forall s t r y, w ++ y = s ++ t :: r -> Forall lx (s ++ t :: r) -> Forall adott s -> no_pair s ->
  tt t = T_At -> Forall adott w /\ exists s', s = w ++ s'.
Proof.
  induction 1 as [k w v H|k w v p w' l H Hp H' IH]; intros s t r y E F A N Et; [eapply word_in; eassumption|].
  rewrite <- app_assoc in E. destruct (word_in _ _ _ _ _ _ _ _ H E F A N Et) as [Aw [s' ->]].
  rewrite <- !app_assoc in E, F. apply app_inv_head in E. apply Forall_app in F as [_ F]. apply Forall_app in A as [_ A]. apply no_pair_app in N.
  destruct s' as [|b s']; cbn [app] in E.
  - injection E as -> _. rewrite Hp in Et. discriminate.
  - injection E as -> E. inversion A as [|? ? Ab A']; subst. inversion F as [|? ? Fb F']; subst.
    destruct (IH s' t r y E F' A' (no_pair_app [b] s' N) Et) as [Aw' [s2 ->]]. split.
    + apply Forall_app. split; [exact Aw|]. constructor; [exact Ab | exact Aw'].
    + exists s2. now rewrite <- app_assoc.
Qed.

Lemma quoted_first rd k w v q vq y x : r_word rd k w v -> r_qstring q vq -> lang (Nt R_quotedString) q -> Forall lexed q -> w ++ y = q ++ x -> solid x -> Forall lx (q ++ x) ->
  w = q /\ v = vq /\ y = x.
Proof.
  intros H Q LQ Lq E Sx F. destruct (quoted_head q LQ) as (t & q' & Eq & Et).
  assert (Sq : solid (q ++ x)) by (rewrite Eq; cbn [app solid]; now rewrite Et).
  destruct H as [w v H|u a u' U L U' _|u c u' v U C U'].
  - exfalso. assert (X : exists u e z, w = u ++ e ++ z /\ opt_cfws u /\ lang (Nt R_encodedWord) e) by (destruct H; eauto 8).
    destruct X as (u & e & z & -> & U & L). rewrite <- !app_assoc in E. symmetry in E. destruct (gap_none _ _ _ Sq U F E) as [-> E'].
    destruct (encoded_head e L) as (a & b & e' & -> & Ea & Eb). rewrite Eq in E'. cbn [app] in E'. injection E' as -> _. rewrite Ea in Et. discriminate.
  - exfalso. rewrite <- !app_assoc in E. symmetry in E. destruct (gap_none _ _ _ Sq U F E) as [-> E'].
    destruct (atom_head a L) as (b & a' & -> & Ha). rewrite Eq in E'. cbn [app] in E'. injection E' as -> _. rewrite Et in Ha. apply memb_In in Ha. discriminate.
  - rewrite <- !app_assoc in E. symmetry in E. destruct (gap_none _ _ _ Sq U F E) as [-> E']. cbn [app] in *.
    assert (LC : Forall lexed c).
    { (* c is a prefix of the text and has no end token *)
      rewrite <- E' in F. clear - F C. destruct C as (q1 & m & u0 & q2 & -> & Q1 & Q2 & V & U0). rewrite Forall_forall in *.
      intros t Ht. destruct (F t) as [K|K]; [apply in_or_app; auto | exact K|]. exfalso. subst t.
      assert (X : forall g w, lang g w -> memb T_EOF (alphabet g) = false -> ~ In eof_tok w).
      { clear. intros g w L N I. apply alphabet_lang in L. rewrite Forall_forall in L. specialize (L _ I). apply memb_In in L. change (tt eof_tok) with T_EOF in L. congruence. }
      cbn [In] in Ht. destruct Ht as [Ht|Ht]; [rewrite Ht in Q1; discriminate|]. apply in_app_or in Ht as [Ht|Ht].
      - clear - V Ht X. induction V as [|u c w v1 v2 U C V IH]; [exact Ht|]. apply in_app_or in Ht as [Ht|Ht]; [revert Ht; apply (X _ _ U); vm_compute; reflexivity|].
        apply in_app_or in Ht as [Ht|Ht]; [|exact (IH Ht)]. destruct C as [t K|b t Kb K|b t Kb K]; cbn [In] in Ht.
        + destruct Ht as [->|[]]. apply memb_In in K. vm_compute in K. discriminate.
        + destruct Ht as [->|[->|[]]]; [discriminate|]. apply memb_In in K. vm_compute in K. discriminate.
        + destruct Ht as [->|[->|[]]]; [discriminate|]. apply memb_In in K. vm_compute in K. discriminate.
      - apply in_app_or in Ht as [Ht|Ht]; [revert Ht; apply (X _ _ U0); vm_compute; reflexivity|]. cbn [In] in Ht. destruct Ht as [Ht|[]]. rewrite Ht in Q2. discriminate. }
    symmetry in E'. destruct (qstring_code q c vq v x (u' ++ y) Q C Lq LC E') as (-> & E2 & ->). apply Forall_app in F as [_ F].
    destruct (gap_none x u' y Sx U' F E2) as [-> ->]. rewrite app_nil_r. auto.
Qed.

(** words and obsolete local parts without the gap in front *)
Lemma word_strip rd k w v : r_word rd k w v ->
  exists u w0 k', w = u ++ w0 /\ opt_cfws u /\ (forall x, solid (w0 ++ x)) /\ r_word rd k' w0 v.
Proof.
  intros [w0 v0 H|u a u' U L U' N|u q u' v0 U Q U'].
  - destruct H as [u e u' U L U'|u e u' w1 v1 U L U' H].
    + exists u, (e ++ u'), KEnc. split; [reflexivity|]. split; [exact U|]. split; [intros x; rewrite <- app_assoc; now apply encoded_solid|].
      apply rw_enc. apply (re_one rd [] e u'); auto using no_gap.
    + exists u, (e ++ u' ++ w1), KEnc. split; [reflexivity|]. split; [exact U|]. split; [intros x; rewrite <- app_assoc; now apply encoded_solid|].
      apply rw_enc. apply (re_more rd [] e u' w1 v1); auto using no_gap.
  - exists u, (a ++ u'), (KAtom false (nonempty u')). split; [reflexivity|]. split; [exact U|].
    destruct (atom_head a L) as (t & a' & Ea & Ht).
    assert (S : forall x, solid (a ++ x)) by (intros x; rewrite Ea; cbn [app]; apply adott_solid; now right).
    split; [intros x; rewrite <- app_assoc; apply S|].
    apply (rw_atom rd [] a u'); auto using no_gap. cbn [app]. intros G. apply N. unfold g_encs in *.
    apply lang_seq in G as (p & r & E & P & R). fold g_enc1 in P. apply lang_enc1 in P as (u1 & e & u2 & -> & U1 & Le & U2).
    destruct u1 as [|z u1].
    + cbn [app] in E. rewrite E. rewrite app_assoc. apply lang_seq_i; [|exact R]. fold g_enc1. now apply lang_enc1_i.
    + exfalso. rewrite Ea in E. cbn [app] in E. injection E as -> _. apply (solid_no z u1 u1 U1). apply adott_solid. now right.
  - exists u, (q ++ u'), KQuo. split; [reflexivity|]. split; [exact U|]. split.
    + intros x. destruct Q as (q1 & m & u0 & q2 & -> & Q1 & _). cbn [app solid]. now rewrite Q1.
    + apply (rw_quoted rd [] q u' v0); auto using no_gap.
Qed.

Lemma obs_strip rd w l : r_obslocal rd w l ->
  exists u w0, w = u ++ w0 /\ opt_cfws u /\ (forall x, solid (w0 ++ x)) /\ r_obslocal rd w0 l.
Proof.
  intros [k w0 v H|k w0 v p w' l' H Hp H'].
  - destruct (word_strip _ _ _ _ H) as (u & w1 & k' & -> & U & S & R). exists u, w1. split; [reflexivity|]. split; [exact U|]. split; [exact S|]. now apply (ol_one rd k').
  - destruct (word_strip _ _ _ _ H) as (u & w1 & k' & -> & U & S & R). exists u, (w1 ++ p :: w').
    split; [now rewrite <- app_assoc|]. split; [exact U|]. split; [intros x; rewrite <- app_assoc; apply S|]. now apply (ol_more rd k').
Qed.

Lemma local_in rd wl v' u l v a y t x : r_local rd wl v' -> opt_cfws u -> tlocal l v -> Forall lexed l -> tt a = T_At -> tt t = T_At ->
  wl ++ a :: y = u ++ l ++ t :: x -> Forall lx (u ++ l ++ t :: x) -> wl = u ++ l /\ v' = v /\ a :: y = t :: x.
Proof.
  intros H U T Ll Ea Et E F.
  assert (Sl : solid (l ++ t :: x)).
  { destruct T as [[T _]|[T _]]; [destruct (dotAtom_head l T) as (b & l' & -> & Hb); cbn [app]; apply adott_solid; now apply atext_adott|].
    destruct (quoted_head l T) as (b & l' & -> & Hb). cbn [app solid]. now rewrite Hb. }
  assert (St : solid (t :: x)) by (cbn [solid]; now rewrite Et).
  assert (Sa : solid (a :: y)) by (cbn [solid]; now rewrite Ea).
  assert (Na : ~ adott a) by (apply (not_adott_ty a _ Ea); vm_compute; reflexivity).
  assert (Nt' : ~ adott t) by (apply (not_adott_ty t _ Et); vm_compute; reflexivity).
  pose proof F as F0. apply Forall_app in F0 as [_ F0]. pose proof F0 as F1. apply Forall_app in F1 as [_ F1].
  destruct H as [u1 m u2 U1 M U2|u1 q u2 vq U1 Q U2|w l' O NL].
  - rewrite <- !app_assoc in E. destruct (dotAtom_head m M) as (b & m' & Em & Hb).
    destruct (gap_whole u (l ++ t :: x) u1 (m ++ u2 ++ a :: y)) as [<- E']; auto.
    { rewrite Em. cbn [app]. apply adott_solid. now apply atext_adott. }
    destruct T as [(T & -> & N)|[T _]].
    + destruct (run_split adott l m (t :: x) (u2 ++ a :: y)) as [-> E2]; auto; try (now apply dotAtom_adott).
      { apply (gap_no_adot u2 (a :: y) U2). exact Na. }
      destruct (gap_none (t :: x) u2 (a :: y)) as [-> E3]; auto. rewrite app_nil_r. auto.
    + exfalso. destruct (quoted_head l T) as (c & l' & -> & Hc). rewrite Em in E'. cbn [app] in E'. injection E' as -> _. rewrite Hc in Hb. discriminate.
  - rewrite <- !app_assoc in E. pose proof Q as (q1 & mq & u0 & q2 & Eq & Q1 & _).
    destruct (gap_whole u (l ++ t :: x) u1 (q ++ u2 ++ a :: y)) as [<- E']; auto.
    { rewrite Eq. cbn [app solid]. now rewrite Q1. }
    destruct T as [(T & -> & N)|[T R]].
    + exfalso. destruct (dotAtom_head l T) as (c & l' & -> & Hc). rewrite Eq in E'. cbn [app] in E'. injection E' as -> _. rewrite Q1 in Hc. discriminate.
    + symmetry in E'. rewrite app_assoc in E'. destruct (quoted_first rd KQuo (q ++ u2) vq l v (a :: y) (t :: x)) as (E1 & -> & E3); auto.
      { apply (rw_quoted rd [] q u2 vq); auto. apply no_gap. }
      rewrite E1. auto.
  - destruct (obs_strip _ _ _ O) as (u1 & w0 & -> & U1 & S & O1). rewrite <- app_assoc in E.
    destruct (gap_whole u (l ++ t :: x) u1 (w0 ++ a :: y)) as [<- E']; auto.
    destruct T as [(T & -> & N)|[T R]].
    + exfalso. symmetry in E'. destruct (obs_in rd w0 l' O1 l t x (a :: y) E' F0 (dotAtom_adott l T) N Et) as [A _].
      destruct (run_split adott w0 l (a :: y) (t :: x)) as [-> _]; auto; [now apply dotAtom_adott|].
      apply NL. cbn [seqs]. apply lang_seq_i; [exact U|]. rewrite <- (app_nil_r l). apply lang_seq_i; [exact T | apply lang_opt_none].
    + symmetry in E'. destruct O1 as [k w v1 H|k w v1 p w' l1 H Hp H'].
      * destruct (quoted_first rd k w v1 l v (a :: y) (t :: x)) as (-> & -> & E3); auto.
      * exfalso. rewrite <- app_assoc in E'. destruct (quoted_first rd k w v1 l v ((p :: w') ++ a :: y) (t :: x)) as (-> & -> & E3); auto.
        cbn [app] in E3. injection E3 as -> _. rewrite Hp in Et. discriminate.
Qed.

(** ** Domains *)
Lemma lit_alpha : memb T_EOF (alphabet (Nt R_domainLiteral)) = false. Proof. vm_compute. reflexivity. Qed.

Lemma tdomain_solid d x : tdomain d -> solid (d ++ x).
Proof.
  intros [[T _]|T].
  - destruct (dotAtom_head d T) as (b & l' & -> & Hb). cbn [app]. apply adott_solid. now apply atext_adott.
  - destruct (literal_head d T) as (b & l' & -> & Hb). cbn [app solid]. now rewrite Hb.
Qed.

Lemma domain_in wd v' d g y y0 : r_domain wd v' -> tdomain d -> Forall lexed d -> opt_cfws g -> solid y -> no_adot y -> solid y0 -> no_adot y0 ->
  wd ++ y = d ++ g ++ y0 -> Forall lx (d ++ g ++ y0) -> wd = d ++ g /\ v' = text d /\ y = y0.
Proof.
  intros H T Ld G Sy Ny S0 N0 E F. destruct H as [u m u' U M U']. rewrite <- !app_assoc in E. symmetry in E.
  destruct (gap_none _ _ _ (tdomain_solid d (g ++ y0) T) U F E) as [-> E']. cbn [app] in *.
  pose proof F as F0. apply Forall_app in F0 as [_ F0].
  assert (X : d = m /\ g ++ y0 = u' ++ y).
  { destruct T as [[T _]|T].
    - assert (A : Forall adott m).
      { destruct M as [M|[M|M]]; [now apply dotAtom_adott | | now apply obsDomain_adott].
        exfalso. destruct (literal_head m M) as (b & m' & -> & Hb). destruct (dotAtom_head d T) as (c & d' & -> & Hc). cbn [app] in E'. injection E' as -> _.
        rewrite Hb in Hc. discriminate. }
      apply (run_split adott); auto; [now apply dotAtom_adott | apply (gap_no_adot g y0 G N0) | apply (gap_no_adot u' y U' Ny)].
    - destruct (literal_head d T) as (c & d' & Ed & Hc).
      assert (ML : lang (Nt R_domainLiteral) m).
      { destruct M as [M|[M|M]]; [|exact M|]; exfalso.
        - destruct (dotAtom_head m M) as (b & m' & -> & Hb). rewrite Ed in E'. cbn [app] in E'. injection E' as -> _. rewrite Hc in Hb. discriminate.
        - destruct (obsDomain_head m M) as (b & m' & -> & Hb). rewrite Ed in E'. cbn [app] in E'. injection E' as -> _. rewrite Hc in Hb. discriminate. }
      destruct (literal_code m d (u' ++ y) (g ++ y0)) as [-> E2]; auto.
      apply (lx_lexed (Nt R_domainLiteral) m (u' ++ y)); [exact ML | rewrite E'; exact F | exact lit_alpha]. }
  destruct X as [-> E2]. destruct (gap_whole g y0 u' y G S0 U' Sy F0 E2) as [-> ->]. auto.
Qed.

(** ** Addresses *)
(** the first token is a comma, a semicolon, a closing bracket or the end *)
Definition stop_types : list ttype := [T_Comma; T_Semicolon; T_EOF; T_Greater].
Definition stop (y : word) : Prop := match y with t :: _ => memb (tt t) stop_types = true | [] => False end.
Lemma stop_not y S : forallb (fun ty => negb (memb ty S)) stop_types = true -> stop y -> match y with t :: _ => memb (tt t) S = false | [] => True end.
Proof.
  intros H K. destruct y as [|t y]; [exact Logic.I|]. cbn [stop] in K. rewrite forallb_forall in H. apply memb_In in K. specialize (H _ K).
  now destruct (memb (tt t) S).
Qed.
Lemma stop_solid y : stop y -> solid y.
Proof. intros H. apply (stop_not y gap_start) in H; [|vm_compute; reflexivity]. destruct y; exact H. Qed.
Lemma stop_no_adot y : stop y -> no_adot y.
Proof. intros H. apply (stop_not y (T_Period :: types R_atext)) in H; [|vm_compute; reflexivity]. destruct y; [exact H|]. cbn [no_adot]. now apply not_adott. Qed.

Lemma addrspec_in rd ws v' u l v t d g y y0 : r_addrspec rd ws v' -> opt_cfws u -> tlocal l v -> Forall lexed l -> tt t = T_At -> tdomain d -> Forall lexed d -> opt_cfws g ->
  stop y -> stop y0 -> ws ++ y = u ++ l ++ t :: d ++ g ++ y0 -> Forall lx (u ++ l ++ t :: d ++ g ++ y0) -> v' = at_join v (text d) /\ y = y0.
Proof.
  intros H U T Ll Et D Ld G Sy S0 E F.
  assert (Fd : Forall lx (d ++ g ++ y0)). { apply Forall_app in F as [_ F]. apply Forall_app in F as [_ F]. now inversion F. }
  destruct H as [wl vl a wd vd HL Ea HD|wl vl a wd vd c p HL Ea HD Ec HP].
  - rewrite <- app_assoc in E. cbn [app] in E. destruct (local_in rd wl vl u l v a (wd ++ y) t (d ++ g ++ y0)) as (_ & -> & E2); auto.
    injection E2 as -> E2. destruct (domain_in wd vd d g y y0) as (_ & -> & ->); auto using stop_solid, stop_no_adot.
  - rewrite <- app_assoc in E. cbn [app] in E. rewrite <- app_assoc in E. cbn [app] in E.
    destruct (local_in rd wl vl u l v a (wd ++ c :: p ++ y) t (d ++ g ++ y0)) as (_ & -> & E2); auto.
    injection E2 as -> E2. exfalso.
    destruct (domain_in wd vd d g (c :: p ++ y) y0) as (_ & _ & <-); auto using stop_solid, stop_no_adot.
    + cbn [solid]. now rewrite Ec.
    + cbn [no_adot]. apply (not_adott_ty c _ Ec). vm_compute. reflexivity.
    + cbn [stop] in S0. rewrite Ec in S0. discriminate.
Qed.

(** a domain and possibly a port *)
Definition tport (p : word) : Prop := exists c q, p = c :: q /\ tt c = T_Colon /\ tok_text c = bs ":" /\ lang (Nt R_port) q.
Definition tported (d : word) : Prop := tdomain d \/ exists d0 p, d = d0 ++ p /\ tdomain d0 /\ tport p.

Lemma port_digits q : lang (Nt R_port) q -> Forall (fun t => tt t = T_Digit) q.
Proof.
  intros H. apply lang_nt in H. change (body R_port) with g_port in H. unfold g_port in H. apply lang_plus_inv in H as (u & us & -> & H).
  change (u ++ concat us) with (concat (u :: us)). induction H as [|x l X H IH]; [constructor|]. cbn [concat]. apply Forall_app. split; [|exact IH].
  apply lang_cls in X as (t & -> & [T|[]]). now constructor.
Qed.

Lemma digits_end q : forall q' y y', Forall (fun t => tt t = T_Digit) q -> Forall (fun t => tt t = T_Digit) q' -> stop y -> stop y' -> q ++ y = q' ++ y' -> q = q' /\ y = y'.
Proof.
  assert (X : forall t y, tt t = T_Digit -> stop (t :: y) -> False) by (intros t y T S; cbn [stop] in S; rewrite T in S; discriminate).
  induction q as [|t q IH]; intros [|t' q'] y y' H H' S S' E; cbn [app] in E.
  - auto.
  - exfalso. subst y. apply Forall_inv in H'. eauto.
  - exfalso. subst y'. apply Forall_inv in H. eauto.
  - injection E as -> E. destruct (IH q' y y') as [-> ->]; auto; now apply Forall_inv_tail in H, H'.
Qed.

Lemma addrspec_port rd ws v' u l v t d p y y0 : r_addrspec rd ws v' -> opt_cfws u -> tlocal l v -> Forall lexed l -> tt t = T_At -> tdomain d -> Forall lexed d -> tport p ->
  stop y -> stop y0 -> ws ++ y = u ++ l ++ t :: d ++ p ++ y0 -> Forall lx (u ++ l ++ t :: d ++ p ++ y0) -> v' = at_join v (text (d ++ p)) /\ y = y0.
Proof.
  intros H U T Ll Et D Ld (c0 & q0 & -> & Hc0 & Hr0 & Q0) Sy S0 E F. cbn [app] in E, F.
  assert (Fd : Forall lx (d ++ c0 :: q0 ++ y0)). { apply Forall_app in F as [_ F]. apply Forall_app in F as [_ F]. now inversion F. }
  assert (Sc : forall x, solid (c0 :: x)) by (intros x; cbn [solid]; now rewrite Hc0).
  assert (Nc : forall x, no_adot (c0 :: x)) by (intros x; cbn [no_adot]; apply (not_adott_ty c0 _ Hc0); vm_compute; reflexivity).
  destruct H as [wl vl a wd vd HL Ea HD|wl vl a wd vd c p HL Ea HD Ec HP].
  - rewrite <- app_assoc in E. cbn [app] in E. destruct (local_in rd wl vl u l v a (wd ++ y) t (d ++ c0 :: q0 ++ y0)) as (_ & -> & E2); auto.
    injection E2 as -> E2. exfalso. destruct (domain_in wd vd d [] y (c0 :: q0 ++ y0)) as (_ & _ & ->); auto using stop_solid, stop_no_adot, no_gap.
    cbn [stop] in Sy. rewrite Hc0 in Sy. discriminate.
  - rewrite <- app_assoc in E. cbn [app] in E. rewrite <- app_assoc in E. cbn [app] in E.
    destruct (local_in rd wl vl u l v a (wd ++ c :: p ++ y) t (d ++ c0 :: q0 ++ y0)) as (_ & -> & E2); auto.
    injection E2 as -> E2.
    destruct (domain_in wd vd d [] (c :: p ++ y) (c0 :: q0 ++ y0)) as (_ & -> & E3); auto using no_gap.
    + cbn [solid]. now rewrite Ec.
    + cbn [no_adot]. apply (not_adott_ty c _ Ec). vm_compute. reflexivity.
    + injection E3 as -> E3. destruct (digits_end p q0 y y0) as [-> ->]; auto using port_digits. split; [|reflexivity]. f_equal.
      rewrite text_app. f_equal. unfold text. cbn [flat_map]. rewrite Hr0. reflexivity.
Qed.

Lemma addrspec_in2 rd ws v' u l v t d g y y0 : r_addrspec rd ws v' -> opt_cfws u -> tlocal l v -> Forall lexed l -> tt t = T_At -> tported d -> Forall lexed d -> opt_cfws g -> g = [] \/ tdomain d ->
  stop y -> stop y0 -> ws ++ y = u ++ l ++ t :: d ++ g ++ y0 -> Forall lx (u ++ l ++ t :: d ++ g ++ y0) -> v' = at_join v (text d) /\ y = y0.
Proof.
  intros H U T Ll Et D Ld G K Sy S0 E F. destruct D as [D|(d0 & p & -> & D & P)]; [now apply (addrspec_in rd ws v' u l v t d g y y0)|].
  destruct K as [->|K]; [|now apply (addrspec_in rd ws v' u l v t (d0 ++ p) g y y0)]. cbn [app] in E, F. rewrite <- app_assoc in E, F.
  apply Forall_app in Ld as [Ld _]. now apply (addrspec_port rd ws v' u l v t d0 p y y0).
Qed.

Lemma tlocal_solid l v x : tlocal l v -> solid (l ++ x).
Proof.
  intros [[T _]|[T _]]; [destruct (dotAtom_head l T) as (b & l' & -> & Hb); cbn [app]; apply adott_solid; now apply atext_adott|].
  destruct (quoted_head l T) as (b & l' & -> & Hb). cbn [app solid]. now rewrite Hb.
Qed.

Lemma tlocal_start l v : tlocal l v -> exists b l', l = b :: l' /\ memb (tt b) word_start = true.
Proof.
  intros [[T _]|[T _]]; [destruct (dotAtom_head l T) as (b & l' & -> & Hb); exists b, l'; split; [reflexivity|]; apply word_start_i; now apply memb_In|].
  destruct (quoted_head l T) as (b & l' & -> & Hb). exists b, l'. split; [reflexivity|]. now rewrite Hb.
Qed.

(** the brackets *)
Lemma angle_in rd wa v' z lt l v t d gt g y y0 : r_angle rd wa v' -> opt_cfws z -> tt lt = T_Less -> tlocal l v -> Forall lexed l -> tt t = T_At -> tported d -> Forall lexed d ->
  tt gt = T_Greater -> opt_cfws g -> stop y -> stop y0 ->
  wa ++ y = z ++ lt :: l ++ t :: d ++ gt :: g ++ y0 -> Forall lx (z ++ lt :: l ++ t :: d ++ gt :: g ++ y0) -> v' = at_join v (text d) /\ y = y0.
Proof.
  intros H Z Hlt T Ll Et D Ld Hgt G Sy S0 E F.
  destruct (tlocal_start l v T) as (b & l' & El & Hb).
  assert (Slt : forall x, solid (lt :: x)) by (intros x; cbn [solid]; now rewrite Hlt).
  assert (P : forall u lt' x, opt_cfws u -> tt lt' = T_Less -> u ++ lt' :: x = z ++ lt :: l ++ t :: d ++ gt :: g ++ y0 -> x = l ++ t :: d ++ gt :: g ++ y0).
  { intros u lt' x U Hl E'. destruct (gap_whole z (lt :: l ++ t :: d ++ gt :: g ++ y0) u (lt' :: x)) as [_ K]; auto; [cbn [solid]; now rewrite Hl|]. now injection K. }
  destruct H as [u lt' s a gt' u' U Hl R Hg U'|u lt' gt' u' U Hl Hg U'|u lt' r s a gt' u' U Hl Hr R Hg U'].
  - rewrite <- app_assoc in E. cbn [app] in E. rewrite <- app_assoc in E. cbn [app] in E. apply (P u lt') in E; auto.
    apply Forall_app in F as [_ F]. apply Forall_inv_tail in F.
    destruct (addrspec_in2 rd s a [] l v t d [] (gt' :: u' ++ y) (gt :: g ++ y0)) as [-> K]; auto using no_gap; try (cbn [stop]; first [now rewrite Hg | now rewrite Hgt]).
    injection K as -> K. split; [reflexivity|].
    apply Forall_app in F as [_ F]. apply Forall_inv_tail in F. apply Forall_app in F as [_ F]. apply Forall_inv_tail in F.
    destruct (gap_whole g y0 u' y) as [_ ->]; auto using stop_solid.
  - rewrite <- app_assoc in E. cbn [app] in E. apply (P u lt') in E; auto. rewrite El in E. cbn [app] in E. injection E as -> _. rewrite Hg in Hb. discriminate.
  - exfalso. rewrite <- app_assoc in E. cbn [app] in E. rewrite <- app_assoc in E. apply (P u lt') in E; auto.
    destruct (head_of _ _ (T_Comma :: T_At :: gap_start) Hr) as (k & r' & -> & Hk); [vm_compute; reflexivity | vm_compute; reflexivity|].
    rewrite El in E. cbn [app] in E. injection E as -> _.
    assert (W : forallb (fun ty => negb (memb ty word_start)) (T_Comma :: T_At :: gap_start) = true) by (vm_compute; reflexivity).
    rewrite forallb_forall in W. apply memb_In in Hk. specialize (W _ Hk). rewrite Hb in W. discriminate.
Qed.
