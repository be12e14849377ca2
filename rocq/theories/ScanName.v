(** Display names: the scanner's reading is the walker's. *)
From Coq Require Import String List NArith ZArith Bool Arith Lia.
From Verif Require Import Lexer Grammar Utf8 Strs Mime GoTime Parser Walker Api Spec ParserFacts
  WalkerFacts Static Cfws LangFacts LexFacts Utf8Facts DateSpec First AddrSpec AddrSem CharFacts ScanSpec ScanFacts ScanEnc ScanWords.
Import ListNotations.

(** ** Joining comments and white space *)
Definition wsps (x : word) : Prop := Forall (fun t => In (tt t) [T_SP; T_TAB]) x.

Definition folded (s : word) : Prop := wsps s \/
  exists x cr lf y, s = x ++ cr :: lf :: y /\ tt cr = T_CR /\ tt lf = T_LF /\ wsps x /\ wsps y /\ y <> [].

Lemma wsp_types : types R_wsp = [T_SP; T_TAB].
Proof. vm_compute. reflexivity. Qed.

Lemma star_wsps x : lang (Star (Nt R_wsp)) x <-> wsps x.
Proof.
  split; [intros H; apply star_single in H; [|reflexivity] | intros H; apply star_single_i; [reflexivity|]]; rewrite wsp_types in *; exact H.
Qed.

Lemma plus_wsps x : lang (Plus (Nt R_wsp)) x <-> x <> [] /\ wsps x.
Proof.
  split.
  - intros H. apply plus_single in H; [|reflexivity]. rewrite wsp_types in H. exact H.
  - intros [N H]. apply plus_single_i; [reflexivity | exact N |]. rewrite wsp_types. exact H.
Qed.

Lemma lang_crlf w : lang (Nt R_crlf) w <-> exists cr lf, w = [cr; lf] /\ tt cr = T_CR /\ tt lf = T_LF.
Proof.
  rewrite lang_nt. change (body R_crlf) with (Seq (Tok T_CR) (Tok T_LF)). split.
  - intros H. apply lang_seq in H as (u & v & -> & H1 & H2). apply lang_cls in H1 as (t & -> & [E1|[]]). apply lang_cls in H2 as (t' & -> & [E2|[]]).
    exists t, t'. auto.
  - intros (cr & lf & -> & H1 & H2). change [cr; lf] with ([cr] ++ [lf]). apply lang_seq_i; apply lang_cls_i; left; auto.
Qed.

Lemma fws_folded s : opt_fws s <-> folded s.
Proof.
  split.
  - intros H. apply lang_opt_inv in H as [H| ->]; [|left; constructor]. apply lang_nt in H. change (body R_fws) with g_fws in H.
    unfold g_fws in H. cbn [alts seqs] in H. apply lang_alt in H as [H|H].
    + apply lang_seq in H as (x & y & -> & H1 & H2). apply plus_wsps in H2 as [N H2]. apply lang_opt_inv in H1 as [H1| ->]; [|left; exact H2].
      apply lang_seq in H1 as (x1 & x2 & -> & H1 & H3). apply star_wsps in H1. apply lang_crlf in H3 as (cr & lf & -> & E1 & E2).
      right. exists x1, cr, lf, y. rewrite <- app_assoc. cbn [app]. auto 6.
    + apply lang_nt in H. change (body R_obsFWS) with g_obsFWS in H. unfold g_obsFWS in H. cbn [seqs] in H.
      apply lang_seq in H as (x & y & -> & H1 & H2). apply lang_seq in H2 as (c & z & -> & H2 & H3). apply plus_wsps in H1 as [_ H1]. apply plus_wsps in H3 as [N H3].
      apply lang_crlf in H2 as (cr & lf & -> & E1 & E2). right. exists x, cr, lf, z. cbn [app]. auto 6.
  - intros [H|(x & cr & lf & y & -> & E1 & E2 & H1 & H2 & N)].
    + destruct s as [|t s]; [apply lang_opt_none|]. apply lang_opt_some, lang_nt_i. change (body R_fws) with g_fws. unfold g_fws. cbn [alts seqs].
      apply lang_altl. rewrite <- (app_nil_l (t :: s)). apply lang_seq_i; [apply lang_opt_none|]. apply plus_wsps. split; [discriminate | exact H].
    + apply lang_opt_some, lang_nt_i. change (body R_fws) with g_fws. unfold g_fws. cbn [alts seqs]. apply lang_altl.
      replace (x ++ cr :: lf :: y) with ((x ++ [cr; lf]) ++ y) by (rewrite <- app_assoc; reflexivity).
      apply lang_seq_i; [apply lang_opt_some, lang_seq_i|].
      * now apply star_wsps.
      * apply lang_crlf. eauto.
      * apply plus_wsps. auto.
Qed.

Inductive cfl : word -> Prop :=
| cfl_f : forall s, folded s -> cfl s
| cfl_c : forall s c w, folded s -> lang (Nt R_comment) c -> cfl w -> cfl (s ++ c ++ w).

Lemma cfws_cfl u : opt_cfws u <-> cfl u.
Proof.
  split.
  - intros H. apply lang_opt_inv in H as [H| ->]; [|apply cfl_f; left; constructor]. apply lang_nt in H. change (body R_cfws) with g_cfws in H.
    unfold g_cfws in H. cbn [alts seqs] in H. apply lang_alt in H as [H|H].
    + apply lang_seq in H as (x & y & -> & H1 & H2). apply fws_folded in H2. apply lang_plus_inv in H1 as (z & us & -> & H1).
      induction H1 as [|v vs Hv H IH]; [cbn; now apply cfl_f|]. cbn [concat]. rewrite <- app_assoc.
      apply lang_seq in Hv as (f & c & -> & F & C). rewrite <- app_assoc. apply cfl_c; [now apply fws_folded | exact C | exact IH].
    + apply cfl_f, fws_folded. now apply lang_opt_some.
  - intros H. assert (G : (exists x y, u = x ++ y /\ lang (Star (seqs [Opt (Nt R_fws); Nt R_comment])) x /\ opt_fws y)).
    { induction H as [s Hs|s c w Hs Hc Hw (x & y & -> & IH1 & IH2)].
      - exists [], s. split; [reflexivity|]. split; [apply lang_star_nil | now apply fws_folded].
      - exists ((s ++ c) ++ x), y. split; [now rewrite <- !app_assoc|]. split; [|exact IH2]. apply lang_star_cons; [|exact IH1].
        apply lang_seq_i; [now apply fws_folded | exact Hc]. }
    destruct G as (x & y & -> & G1 & G2). apply lang_star in G1 as [->|(x1 & x2 & -> & G1 & G3)].
    + cbn [app]. apply lang_opt_inv in G2 as [G2| ->]; [|apply lang_opt_none]. apply lang_opt_some, lang_nt_i. change (body R_cfws) with g_cfws.
      unfold g_cfws. cbn [alts]. now apply lang_altr.
    + apply lang_opt_some, lang_nt_i. change (body R_cfws) with g_cfws. unfold g_cfws. cbn [alts seqs]. apply lang_altl. apply lang_seq_i; [|exact G2].
      now apply lang_seq_i.
Qed.

Lemma one_fold_sub p s q : one_fold (p ++ s ++ q) -> one_fold s.
Proof.
  intros H a x b ->. apply (H (p ++ a) x (b ++ q)). now repeat (rewrite <- app_assoc; cbn [app]).
Qed.

Lemma folded_app s s' : folded s -> folded s' -> Forall lexed (s ++ s') -> one_fold (rs (s ++ s')) -> folded (s ++ s').
Proof.
  intros [H|(x & cr & lf & y & -> & E1 & E2 & H1 & H2 & N)] [H'|(x' & cr' & lf' & y' & -> & E1' & E2' & H1' & H2' & N')] L O.
  - left. apply Forall_app. auto.
  - right. exists (s ++ x'), cr', lf', y'. rewrite <- app_assoc. split; [reflexivity|]. repeat (split; [assumption|]). split; [apply Forall_app; auto | auto].
  - right. exists x, cr, lf, (y ++ s'). rewrite <- app_assoc. cbn [app]. split; [reflexivity|]. repeat (split; [assumption|]).
    split; [apply Forall_app; auto|]. destruct y; [congruence | discriminate].
  - exfalso.
    assert (T : tr cr = 13%N /\ tr cr' = 13%N /\ tr lf = 10%N /\ tr lf' = 10%N /\ Forall (fun r => ((r =? 32) || (r =? 9))%N = true) (rs (y ++ x'))).
    { apply Forall_app in L as [L1 L2]. apply Forall_app in L1 as [_ L1]. apply Forall_app in L2 as [L2 L3].
      inversion L1 as [|? ? Lcr0 L1']; subst. inversion L1' as [|? ? Llf Ly]; subst.
      inversion L3 as [|? ? Lcr L3']; subst. inversion L3' as [|? ? Llf' _]; subst.
      split; [eapply tok_char; [| | |exact Lcr0 | exact E1]; [vm_compute; reflexivity | reflexivity | discriminate]|].
      split; [eapply tok_char; [| | |exact Lcr | exact E1']; [vm_compute; reflexivity | reflexivity | discriminate]|].
      split; [eapply tok_char; [| | |exact Llf | exact E2]; [vm_compute; reflexivity | reflexivity | discriminate]|].
      split; [eapply tok_char; [| | |exact Llf' | exact E2']; [vm_compute; reflexivity | reflexivity | discriminate]|].
      unfold rs. rewrite Forall_map. assert (Lyx : Forall lexed (y ++ x')) by (apply Forall_app; auto).
      assert (Hyx : wsps (y ++ x')) by (unfold wsps; apply Forall_app; auto). unfold wsps in Hyx.
      rewrite Forall_forall in *. intros t Ht. specialize (Lyx t Ht). specialize (Hyx t Ht). cbn [In] in Hyx. destruct Hyx as [Hyx|[Hyx|[]]].
      - assert (tr t = 32%N) as -> by (eapply tok_char; [| | |exact Lyx | symmetry; exact Hyx]; [vm_compute; reflexivity | reflexivity | discriminate]). reflexivity.
      - assert (tr t = 9%N) as -> by (eapply tok_char; [| | |exact Lyx | symmetry; exact Hyx]; [vm_compute; reflexivity | reflexivity | discriminate]). reflexivity. }
    destruct T as (T0 & T0' & T1 & T2 & T3).
    assert (X : forallb (fun r => ((r =? 32) || (r =? 9))%N) (rs (y ++ x')) = false).
    { apply (O (rs x) (rs (y ++ x')) (rs y')). unfold rs. rewrite !map_app. cbn [map]. rewrite T0, T0', T1, T2. cbn [map].
      repeat (rewrite <- app_assoc; cbn [app]). reflexivity. }
    rewrite <- not_true_iff_false in X. apply X. apply forallb_forall. rewrite Forall_forall in T3. exact T3.
Qed.

Lemma cfws_app u v : opt_cfws u -> opt_cfws v -> Forall lexed (u ++ v) -> one_fold (rs (u ++ v)) -> opt_cfws (u ++ v).
Proof.
  rewrite !cfws_cfl. intros H Hv. induction H as [s Hs|s c w Hs Hc Hw IH]; intros L O.
  - destruct Hv as [s' Hs'|s' c w Hs' Hc Hw].
    + apply cfl_f. now apply folded_app.
    + rewrite app_assoc. apply cfl_c; [|exact Hc | exact Hw]. rewrite app_assoc in L, O. apply Forall_app in L as [L _].
      apply folded_app; [exact Hs | exact Hs' | exact L |]. rewrite rs_app in O. apply (one_fold_sub [] _ _ O).
  - rewrite <- !app_assoc in *. apply cfl_c; [exact Hs | exact Hc|]. apply IH.
    + apply Forall_app in L as [_ L]. apply Forall_app in L as [_ L]. exact L.
    + rewrite app_assoc, rs_app in O. rewrite <- (app_nil_r (rs (w ++ v))) in O. exact (one_fold_sub _ _ _ O).
Qed.

(** ** The names fold *)
Fixpoint nst (rd : charset_reader) (st : nstate) (p : list rune) (l : list emit) : nstate * list rune :=
  match l with
  | [] => (st, p)
  | EA r :: l' => nst rd st (p ++ [r]) l'
  | x :: l' => nst rd (nitem (flush rd st p) x) [] l'
  end.

Lemma names_app rd l1 : forall st p l2, names rd st p (l1 ++ l2) = names rd (fst (nst rd st p l1)) (snd (nst rd st p l1)) l2.
Proof. induction l1 as [|x l1 IH]; intros st p l2; [reflexivity|]. destruct x; cbn [app names nst]; apply IH. Qed.

Lemma nst_app rd l1 : forall st p l2, nst rd st p (l1 ++ l2) = nst rd (fst (nst rd st p l1)) (snd (nst rd st p l1)) l2.
Proof. induction l1 as [|x l1 IH]; intros st p l2; [reflexivity|]. destruct x; cbn [app nst]; apply IH. Qed.

Lemma nst_atoms rd st p x : nst rd st p (map EA x) = (st, p ++ x).
Proof. revert p. induction x as [|r x IH]; intros p; cbn [map nst]; [now rewrite app_nil_r|]. rewrite IH, <- app_assoc. reflexivity. Qed.

Lemma flush_nil rd st : flush rd st [] = st.
Proof. reflexivity. Qed.

Lemma nitem_gap st : nitem st EG = st.
Proof. now destruct st as [[n u] pe]. Qed.

Lemma nst_gaps rd k st p : nst rd st p (repeat EG (S k)) = (flush rd st p, []).
Proof.
  cbn [repeat nst]. rewrite nitem_gap. induction k as [|k IH]; [reflexivity|]. cbn [repeat nst]. rewrite flush_nil, nitem_gap. exact IH.
Qed.

Lemma nst_gaps' rd k st p : let '(st', p') := nst rd st p (repeat EG k) in flush rd st' p' = flush rd st p /\ p' = if k then p else [].
Proof. destruct k; [cbn; auto|]. rewrite nst_gaps. auto. Qed.

Lemma nst_noA rd st p E : noA E -> E <> [] -> nst rd st p E = nst rd (flush rd st p) [] E.
Proof. intros H N. destruct E as [|x E]; [congruence|]. destruct x; [destruct H|..]; reflexivity. Qed.

Lemma glue_app n u x y : glue n u (x ++ y) = glue n u x ++ y.
Proof. unfold glue. destruct u; [now rewrite app_assoc|]. destruct n; [reflexivity | now rewrite !app_assoc]. Qed.

Lemma enc_value_app rd l l' : enc_value rd (l ++ l') = enc_value rd l ++ enc_value rd l'.
Proof. apply flat_map_app. Qed.

Lemma flush_words rd n u pe p l : enc_words p = Some l -> flush rd (n, u, pe) p = (if pe then n ++ enc_value rd l else glue n u (enc_value rd l), false, true).
Proof.
  unfold enc_words, flush. destruct (enc_split p) as [[|w ws] [|c q]] eqn:E; try discriminate. intros [= <-]. destruct p; [discriminate E | reflexivity].
Qed.

Lemma flush_encl rd st p : encl p -> p <> [] -> exists n, flush rd st p = (n, false, true).
Proof.
  intros H N. destruct (encl_words p H N) as (l & E & _). destruct st as [[n u] pe]. rewrite (flush_words _ _ _ _ _ _ E). eauto.
Qed.

Lemma flush_more rd st p e n u pe : encl p -> enc1 e -> flush rd st p = (n, u, pe) ->
  flush rd st (p ++ e) = (if pe then n ++ enc_value rd [e] else glue n u (enc_value rd [e]), false, true).
Proof.
  intros Hp He. destruct p as [|r p].
  - cbn [app flush]. intros ->. apply flush_words. pose proof (enc_words_complete [e]) as X. cbn [concat] in X. rewrite app_nil_r in X. apply X; [auto | discriminate].
  - destruct (encl_words (r :: p) Hp) as (l & E & Ep & F & N); [discriminate|]. destruct st as [[n0 u0] pe0].
    assert (X : enc_words ((r :: p) ++ e) = Some (l ++ [e])).
    { rewrite Ep. rewrite <- (app_nil_r e) at 1. change (e ++ []) with (concat [e]). rewrite <- concat_app. apply enc_words_complete; [apply Forall_app; auto|].
      destruct l; discriminate. }
    rewrite (flush_words _ _ _ _ _ _ X), (flush_words _ _ _ _ _ _ E). intros H. injection H as <- <- <-. rewrite enc_value_app.
    destruct pe0; [now rewrite app_assoc | now rewrite glue_app].
Qed.

(** encoded words and then a word *)
Lemma flush_mixed rd st p x n u pe : encl p -> x <> [] -> enc_head x = None -> flush rd st p = (n, u, pe) ->
  flush rd st (p ++ x) = (glue n u (encode x), false, false).
Proof.
  intros (l & -> & F) Nx Hx. destruct st as [[n0 u0] pe0]. unfold flush at 2. pose proof (enc_split_spec l x F Hx) as E. rewrite E.
  destruct F as [|e l He F].
  - cbn [concat app flush]. intros [= <- <- <-]. destruct x; [congruence | reflexivity].
  - assert (W : enc_words (concat (e :: l)) = Some (e :: l)) by (apply enc_words_complete; [now constructor | discriminate]).
    rewrite (flush_words _ _ _ _ _ _ W). intros [= <- <- <-]. pose proof (enc1_nonnil e He) as [z Ez]. cbn [concat]. rewrite Ez. cbn [app]. destruct x; [congruence | reflexivity].
Qed.

Lemma nst_encE rd E l : encE E l -> forall st p n u pe, encl p -> flush rd st p = (n, u, pe) ->
  exists st' p', nst rd st p E = (st', p') /\ encl p' /\
    flush rd st' p' = match l with [] => (n, u, pe) | _ => (if pe then n ++ enc_value rd l else glue n u (enc_value rd l), false, true) end.
Proof.
  induction 1 as [|E l H IH|e E l He H IH]; intros st p n u pe Hp F.
  - exists st, p. auto.
  - cbn [nst]. rewrite nitem_gap, F. apply IH; [apply encl_nil | reflexivity].
  - rewrite nst_app, nst_atoms. cbn [fst snd].
    pose proof (flush_more rd st p e n u pe Hp He F) as F'.
    destruct (IH st (p ++ e) _ _ _ (encl_app _ _ Hp (encl_one _ He)) F') as (st' & p' & E1 & E2 & E3). exists st', p'. split; [exact E1|]. split; [exact E2|].
    rewrite E3. change (e :: l) with ([e] ++ l). rewrite enc_value_app. destruct l as [|e' l].
    + cbn [app]. change (enc_value rd []) with (@nil N). rewrite !app_nil_r. reflexivity.
    + cbn [app]. destruct pe; [now rewrite app_assoc | now rewrite glue_app].
Qed.

Lemma flush_atom rd n u pe x : x <> [] -> enc_head x = None -> flush rd (n, u, pe) x = (glue n u (encode x), false, false).
Proof. intros N E. exact (flush_mixed rd (n, u, pe) [] x n u pe encl_nil N E eq_refl). Qed.

(** ** Display names *)
Definition dispE (x : emit) : Prop := match x with EA _ | EG | EQ _ => True | ES r => r = 46%N \/ r = 64%N | _ => False end.

Lemma dispE_gaps k : Forall dispE (repeat EG k).
Proof. apply Forall_forall. intros x H. apply repeat_spec in H. now subst. Qed.

Lemma dispE_atoms x : Forall dispE (map EA x).
Proof. apply Forall_map. apply Forall_forall. intros. exact I. Qed.

Lemma encE_disp E l : encE E l -> Forall dispE E.
Proof. induction 1; [constructor | constructor; [exact I | assumption] |]. apply Forall_app. split; [apply dispE_atoms | assumption]. Qed.

Lemma wordE_disp rd k E v : wordE rd k E v -> Forall dispE E.
Proof.
  intros [E' l H _|k1 x k2 _ _|k1 t k2].
  - now apply encE_disp in H.
  - repeat (apply Forall_app; split); auto using dispE_gaps, dispE_atoms.
  - repeat (apply Forall_app; split); auto using dispE_gaps, dispE_atoms. repeat constructor.
Qed.

Lemma encE_nonnil E l : encE E l -> l <> [] -> E <> [].
Proof.
  intros H N. destruct H as [|E l H|e E l He H]; [congruence | discriminate |]. apply enc1_nonnil in He as [z ->]. discriminate.
Qed.

Lemma cfws_nonnil w : lang (Nt R_cfws) w -> w <> [].
Proof. intros H ->. apply lang_nullable in H. discriminate H. Qed.

(** The next item does not go on with the current run of atom characters. *)
Definition nostart (l : list ditem) : Prop := match l with DWord (KAtom false _) _ :: _ => False | _ => True end.

Lemma unenc_em k1 k2 w v : unenc (KAtom k1 k2) w v -> Forall lexed w ->
  exists k x k', emits w (repeat EG k ++ map EA x ++ repeat EG k') /\ k1 = pos k /\ k2 = pos k' /\ v = encode x /\ atom x /\ enc_head x = None.
Proof.
  intros (u & a & u' & -> & -> & -> & -> & Hu & Ha & Hu' & X) L. apply Forall_app in L as [L1 L]. apply Forall_app in L as [L2 L3].
  destruct (emits_cfws u Hu L1) as (k & R1 & Z1 & Y1). destruct (emits_cfws u' Hu' L3) as (k' & R3 & Z3 & Y3).
  pose proof (lang_atom a L2 Ha) as A. fold (rs a) in A. exists k, (rs a), k'.
  split; [apply emits_app; [exact R1|]; apply emits_app; [|exact R3]; apply emits_atom; [exact L2 | apply A]|].
  split; [now apply pos_nonempty|]. split; [now apply pos_nonempty|]. split; [now rewrite text_lexed|]. split; [exact A|].
  destruct (enc_head (rs a)) as [[e r]|] eqn:E; [|reflexivity]. exfalso. apply enc_head_sound in E as [E He].
  apply (X (toks e) (toks r)); [|now apply enc1_lang]. rewrite <- toks_app, <- E. now apply lexed_toks.
Qed.

Lemma encs_split w : lang g_encs w -> exists u r, w = u ++ r /\ opt_cfws u /\ forall u', opt_cfws u' -> lang g_encs (u' ++ r).
Proof.
  unfold g_encs. intros H. apply lang_seq in H as (x & y & -> & H1 & H2). apply lang_seq in H1 as (u & z & -> & H1 & H3).
  exists u, (z ++ y). split; [now rewrite <- app_assoc|]. split; [exact H1|]. intros u' Hu'. rewrite app_assoc. apply lang_seq_i; [|exact H2].
  now apply lang_seq_i.
Qed.

Lemma encs_merge pre w : lang g_encs w -> opt_cfws pre -> Forall lexed (pre ++ w) -> one_fold (rs (pre ++ w)) -> lang g_encs (pre ++ w).
Proof.
  intros H Hp L O. destruct (encs_split w H) as (u & r & -> & Hu & X). rewrite app_assoc. apply X. apply cfws_app; auto.
  - rewrite app_assoc in L. apply Forall_app in L. tauto.
  - rewrite app_assoc, rs_app in O. apply (one_fold_sub [] _ _ O).
Qed.

Definition nojoin (ws : list word) (l : list ditem) : Prop :=
  match ws, l with w :: _, DWord KEnc _ :: _ => no_join w | _, _ => True end.

Definition pend_ok (p : list rune) (ws : list word) (l : list ditem) (pre : word) : Prop :=
  p = [] \/ (p <> [] /\ encl p /\ pre = []) \/ (p <> [] /\ nostart l /\ nojoin ws l).

Lemma dname_word n u k v l : dname n u (DWord k v :: l) = dname (glue n u v) false l.
Proof. reflexivity. Qed.

Lemma ditems_scan rd b a rest : forall ws l, Forall2 (r_ditem rd) ws l -> apart ws l -> Forall lexed (concat ws) ->
  forall st p n u pe pre, flush rd st p = (n, u, pe) -> tamed b (MN a) (rs (concat ws) ++ rest) ->
  pend_ok p ws l pre -> (pe = true -> b = true /\ opt_cfws pre /\ enc_gap pre ws l) -> Forall lexed pre ->
  (b = true -> one_fold (rs (pre ++ concat ws))) ->
  exists E, emits (concat ws) E /\ names rd st p E = dname n u l /\ Forall dispE E.
Proof.
  intros ws l H. induction H as [|w d ws l Hw H IH]; intros Ap L st p n u pe pre F K Pp Hpe Lp O.
  { exists []. split; [apply emits_nil|]. split; [cbn [names dname]; now rewrite F | constructor]. }
  cbn [concat] in *. apply Forall_app in L as [L1 L2]. rewrite rs_app, <- app_assoc in K.
  (* a common end: the item's emission is known *)
  assert (Fin : forall E st' p' n' u' pe' pre', emits w E -> Forall dispE E -> nst rd st p E = (st', p') -> flush rd st' p' = (n', u', pe') ->
     pend_ok p' ws l pre' -> (pe' = true -> b = true /\ opt_cfws pre' /\ enc_gap pre' ws l) -> Forall lexed pre' ->
     (b = true -> one_fold (rs (pre' ++ concat ws))) -> dname n u (d :: l) = dname n' u' l -> apart ws l ->
     exists E, emits (w ++ concat ws) E /\ names rd st p E = dname n u (d :: l) /\ Forall dispE E).
  { intros E st' p' n' u' pe' pre' R D S F' P' H' L' O' Ed Ap'.
    destruct (IH Ap' L2 st' p' n' u' pe' pre' F') as (E2 & R2 & N2 & D2); auto.
    { exact (tamed_emits _ _ _ _ _ R K). }
    exists (E ++ E2). split; [now apply emits_app|]. split; [rewrite names_app, S; cbn [fst snd]; now rewrite N2|]. apply Forall_app. auto. }
  assert (O2 : b = true -> one_fold (rs (@nil tok ++ concat ws))).
  { intros Hb. specialize (O Hb). rewrite app_assoc, rs_app in O. rewrite <- (app_nil_r (rs (concat ws))) in O. exact (one_fold_sub _ _ _ O). }
  destruct Hw as [k w v Hw|t Ht|w Hw].
  - destruct k as [|b1 b2|].
    + (* encoded words *)
      inversion Hw as [w0 v0 He| |]; subst w0 v0. destruct (encs_em _ _ _ He L1 _ _ _ K) as (Hb & E & m & R & HE & Nm & Ev & HX).
      destruct Ap as (Fo & _ & Ap). pose proof (encE_nonnil _ _ HE Nm) as NE.
      assert (pe = false).
      { destruct pe; [|reflexivity]. exfalso. destruct (Hpe eq_refl) as (_ & Hc & Hg). cbn [enc_gap] in Hg. apply Hg.
        apply encs_merge; [now apply (encs_lang rd w v) | exact Hc | apply Forall_app; auto|].
        specialize (O Hb). rewrite app_assoc, rs_app in O. exact (one_fold_sub [] _ _ O). }
      subst pe.
      assert (S0 : nst rd st p E = nst rd (n, u, false) [] E).
      { destruct Pp as [->|[(Np & Hp & _)|(Np & _ & Hj)]].
        - cbn [flush] in F. now rewrite F.
        - destruct (flush_encl rd st p Hp Np) as [n' X]. rewrite F in X. discriminate.
        - destruct HX as [HX|(e0 & u0 & r0 & -> & X1 & X2 & X3)].
          + rewrite nst_noA by assumption. now rewrite F.
          + exfalso. cbn [nojoin] in Hj. apply (Hj e0 u0 r0 eq_refl); [|exact X2 | exact X3].
            apply Forall_app in L1 as [L1 _]. rewrite (lexed_toks e0 L1). apply lang_atom_i. fold (rs e0). split; [apply enc1_nonnil in X1 as [z Ez]; rewrite Ez; discriminate | now apply enc1_atext]. }
      destruct (nst_encE rd E m HE (n, u, false) [] n u false encl_nil eq_refl) as (st' & p' & S & Hp' & F').
      rewrite S in S0. destruct m as [|e m]; [congruence|].
      apply (Fin E st' p' (glue n u v) false true []); auto.
      * eapply encE_disp; eassumption.
      * now rewrite F', Ev.
      * destruct p'; [left; reflexivity | right; left; split; [discriminate | auto]].
      * intros _. split; [exact Hb|]. split; [apply lang_opt_none | exact Fo].
    + (* an atom *)
      destruct Ap as (Fo & Ue & Ap). destruct (unenc_em _ _ _ _ Ue L1) as (k & x & k' & R & -> & -> & -> & [Ne Hx] & Nx).
      assert (S1 : exists st1 p1, nst rd st p (repeat EG k ++ map EA x) = (st1, p1) /\ p1 <> [] /\ flush rd st1 p1 = (glue n u (encode x), false, false)).
      { rewrite nst_app, nst_atoms. destruct k as [|k].
        - cbn [repeat nst fst snd]. exists st, (p ++ x). split; [reflexivity|]. split; [destruct p; [exact Ne | discriminate]|].
          destruct Pp as [->|[(Np & Hp & _)|(Np & Hs & _)]]; [|now apply (flush_mixed rd st p x n u pe) | destruct Hs].
          cbn [flush app] in *. subst st. now apply flush_atom.
        - rewrite nst_gaps. cbn [fst snd app]. exists (flush rd st p), x. split; [reflexivity|]. split; [exact Ne|]. rewrite F. now apply flush_atom. }
      destruct S1 as (st1 & p1 & S1 & Np1 & F1).
      assert (D : Forall dispE (repeat EG k ++ map EA x ++ repeat EG k')) by (repeat (apply Forall_app; split); auto using dispE_gaps, dispE_atoms).
      destruct k' as [|k'].
      * apply (Fin _ st1 p1 (glue n u (encode x)) false false []) with (1 := R); auto.
        -- cbn [repeat]. rewrite app_nil_r. exact S1.
        -- right; right. split; [exact Np1|]. cbn [pos follows] in Fo. split.
           ++ unfold nostart. destruct l as [|[[|[|] ?|] ?|?|] l]; exact Fo || exact I.
           ++ unfold nojoin. destruct ws as [|w1 ws]; [exact I|]. destruct l as [|[[|[|] ?|] ?|?|] l]; exact Fo || exact I.
        -- discriminate.
      * apply (Fin _ (flush rd st1 p1) [] (glue n u (encode x)) false false []) with (1 := R); auto.
        -- rewrite app_assoc, nst_app, S1. cbn [fst snd]. apply nst_gaps.
        -- now left.
        -- discriminate.
    + (* a quoted string *)
      destruct (word_em _ _ _ _ Hw L1) as (E & R & HE); [discriminate|]. inversion HE as [| |k t k' E1 E2 E3]; subst E v. destruct Ap as (_ & _ & Ap).
      apply (Fin _ (glue n u (encode t), false, false) [] (glue n u (encode t)) false false []) with (1 := R); auto.
      * eapply wordE_disp; exact HE.
      * rewrite !nst_app. cbn [app nst].
        assert (X : flush rd (fst (nst rd st p (repeat EG k))) (snd (nst rd st p (repeat EG k))) = (n, u, pe)).
        { destruct k; [exact F|]. rewrite nst_gaps. cbn [fst snd]. now rewrite flush_nil. }
        rewrite X. cbn [nitem fst snd]. destruct k'; [reflexivity|]. now rewrite nst_gaps.
      * now left.
      * discriminate.
  - (* a period or at-sign *)
    assert (R : emits [t] [ES (tr t)] /\ (tr t = 46%N \/ tr t = 64%N)).
    { apply Forall_inv in L1. destruct Ht as [Ht|[Ht|[]]]; symmetry in Ht; [tokc t 46%N | tokc t 64%N]; (split; [|auto]); intros a'; rewrite rs_cons, H0; reflexivity. }
    destruct R as [R Rt]. apply Forall_inv in L1.
    apply (Fin _ (n ++ encode1 (tr t), true, false) [] (n ++ encode1 (tr t)) true false []) with (1 := R); auto.
    + cbn [nst]. now rewrite F.
    + now left.
    + discriminate.
    + cbn [dname]. now rewrite lexed_text.
  - (* comments and white space *)
    pose proof (cfws_nonnil w Hw) as Nw. destruct (emits_cfws w (lang_opt_some _ _ Hw) L1) as (k & R & Z & _).
    destruct k as [|k]; [destruct (Nw (Z eq_refl))|].
    apply (Fin _ (n, u, pe) [] n u pe (pre ++ w)) with (1 := R); auto.
    + apply dispE_gaps.
    + rewrite nst_gaps. now rewrite F.
    + now left.
    + intros Hp. destruct (Hpe Hp) as (Hb & Hc & Hg). split; [exact Hb|]. split; [|exact Hg]. apply cfws_app; [exact Hc | exact (lang_opt_some _ _ Hw) | |].
      * apply Forall_app. auto.
      * specialize (O Hb). rewrite app_assoc, rs_app in O. exact (one_fold_sub [] _ _ O).
    + apply Forall_app. auto.
    + intros Hb. rewrite <- app_assoc. auto.
Qed.

Lemma display_scan rd b a rest w v : r_display rd w v -> Forall lexed w -> tamed b (MN a) (rs w ++ rest) -> (b = true -> one_fold (rs w)) ->
  exists E, emits w E /\ (forall k, name_of rd (E ++ repeat EG k) = v) /\ Forall dispE E.
Proof.
  intros (k1 & w1 & v1 & ws & l & -> & H1 & H2 & Ap & ->) L K O.
  destruct (ditems_scan rd b a rest (w1 :: ws) (DWord k1 v1 :: l)) with (st := (@nil N, false, false)) (p := @nil rune) (n := @nil N) (u := false) (pe := false) (pre := @nil tok)
    as (E & R & N & D); auto.
  - constructor; [now constructor | exact H2].
  - now left.
  - discriminate.
  - exists E. split; [exact R|]. split; [|exact D]. intros k. etransitivity; [|exact N]. unfold name_of. rewrite names_app.
    destruct (nst rd ([], false, false) [] E) as [st p] eqn:S. cbn [fst snd].
    transitivity (names rd st p []); [|pose proof (names_app rd E ([], false, false) [] []) as X; rewrite app_nil_r, S in X; cbn [fst snd] in X; exact (eq_sym X)].
    clear. revert st p. induction k as [|k IH]; intros st p; [reflexivity|]. cbn [repeat names]. rewrite nitem_gap, IH. reflexivity.
Qed.
