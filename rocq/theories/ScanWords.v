(** What the scanner reports on quoted strings, literals, dot-atoms and words. *)
From Coq Require Import String List NArith ZArith Bool Arith Lia.
From Verif Require Import Lexer Grammar Utf8 Strs Mime GoTime Parser Walker Api Spec ParserFacts
  WalkerFacts Static Cfws LangFacts LexFacts Utf8Facts DateSpec First AddrSpec AddrSem CharFacts ScanSpec ScanFacts ScanEnc.
Import ListNotations.

(** ** Quoted strings *)
Definition qplain (r : rune) : bool := (negb (existsb (N.eqb r) [0; 34; 92; 32; 9; 13; 10]))%N.

Lemma qtext_class r : bmp r = true -> memb (tt (tok_of r)) (types R_qtext) = qplain r.
Proof. apply class_spec; [vm_compute; reflexivity|]. intros c Hc. unfold qplain. rewrite existsb_hi by (lia || reflexivity). reflexivity. Qed.

Definition qpair_char (r : rune) : bool := negb (lost r).

Lemma qchar_class r : bmp r = true -> memb (tt (tok_of r)) (types R_quotedChar) = qpair_char r.
Proof.
  apply class_spec; [vm_compute; reflexivity|]. intros c Hc. unfold qpair_char, lost.
  rewrite !hi_eqb by lia. replace (c <? 32)%N with false by (symmetry; apply N.ltb_ge; lia). reflexivity.
Qed.

Lemma obsqp_class r : bmp r = true -> memb (tt (tok_of r)) obs_qp = lost r.
Proof.
  apply class_spec; [vm_compute; reflexivity|]. intros c Hc. unfold lost.
  rewrite !hi_eqb by lia. replace (c <? 32)%N with false by (symmetry; apply N.ltb_ge; lia). reflexivity.
Qed.

Lemma step_qplain a acc pend r : qplain r = true -> step (MQ a acc pend) r = (MQ a (acc ++ pend ++ [r]) [], []).
Proof.
  unfold qplain. rewrite negb_true_iff. cbn [existsb]. rewrite !orb_false_iff. intros (_ & H1 & H2 & H3 & H4 & H5 & H6 & _).
  cbn [step]. rewrite H1, H2. unfold ws. cbn [existsb]. rewrite H3, H4, H5, H6. reflexivity.
Qed.

Lemma step_qws a acc pend r : ws r = true -> step (MQ a acc pend) r = (MQ a acc (pend ++ [r]), []).
Proof.
  intros H. unfold ws in H. cbn [existsb] in H. rewrite !orb_true_iff, !N.eqb_eq in H.
  destruct H as [->|[->|[->|[->|H]]]]; [reflexivity..|discriminate].
Qed.

Lemma runs_qws a acc x : Forall (fun r => ws r = true) x -> forall pend, runs_to (MQ a acc pend) x (MQ a acc (pend ++ x)) [].
Proof.
  induction 1 as [|r x Hr H IH]; intros pend; [rewrite app_nil_r; apply runs_nil|].
  replace (pend ++ r :: x) with ((pend ++ [r]) ++ x) by now rewrite <- app_assoc.
  change (@nil emit) with (@nil emit ++ []). eapply runs_step; [now apply step_qws | apply IH].
Qed.

Lemma runs_qvalue w v : r_qvalue w v -> Forall lexed w -> exists t, v = encode t /\ Forall (fun r => bmp r = true) t /\
  forall a acc, runs_to (MQ a acc []) (rs w) (MQ a (acc ++ t) []) [].
Proof.
  induction 1 as [|u c w v1 v2 Hu Hc Hw IH]; intros L.
  { exists []. split; [reflexivity|]. split; [constructor|]. intros a acc. rewrite app_nil_r. apply runs_nil. }
  apply Forall_app in L as [L1 L]. apply Forall_app in L as [L2 L3]. destruct (IH L3) as (t & Ev & Bt & R).
  pose proof (ws_toks u L1 (fws_types u Hu)) as W.
  assert (X : exists s, v1 = encode s /\ Forall (fun r => bmp r = true) s /\ forall a acc pend, runs_to (MQ a acc pend) (rs c) (MQ a (acc ++ pend ++ s) []) []).
  { destruct Hc as [t1 H1|b t1 Hb H1|b t1 Hb H1].
    - apply Forall_inv in L2. exists [tr t1]. split; [rewrite lexed_text by assumption; cbn; now rewrite app_nil_r|].
      split; [repeat constructor; now apply lexed_bmp|]. intros a acc pend. change (@nil emit) with (@nil emit ++ []).
      eapply runs_step; [apply step_qplain|apply runs_nil]. eapply class_lexed; [apply qtext_class | exact L2 | exact H1].
    - inversion L2 as [|? ? Lb L2']; subst. apply Forall_inv in L2'. exists [tr t1]. split; [rewrite lexed_text by assumption; cbn; now rewrite app_nil_r|].
      split; [repeat constructor; now apply lexed_bmp|]. intros a acc pend. rewrite !rs_cons. tokc b 92%N. change (@nil emit) with (@nil emit ++ [] ++ []).
      eapply runs_step; [reflexivity|]. eapply runs_step; [|apply runs_nil]. cbn [step].
      pose proof (class_lexed _ _ _ qchar_class L2' H1) as Q. unfold qpair_char in Q. apply negb_true_iff in Q. now rewrite Q.
    - inversion L2 as [|? ? Lb L2']; subst. apply Forall_inv in L2'. exists []. split; [reflexivity|]. split; [constructor|]. intros a acc pend.
      rewrite !rs_cons. tokc b 92%N. change (@nil emit) with (@nil emit ++ [] ++ []).
      eapply runs_step; [reflexivity|]. eapply runs_step; [|apply runs_nil]. cbn [step].
      rewrite (class_lexed _ _ _ obsqp_class L2' H1). reflexivity. }
  destruct X as (s & Es & Bs & Rc). exists (rs u ++ s ++ t). split; [|split].
  - rewrite !encode_app, <- Es, <- Ev. unfold rs. now rewrite <- text_lexed.
  - repeat (apply Forall_app; split); try assumption. unfold rs. rewrite Forall_map. eapply Forall_impl; [|exact L1]. intros t0. apply lexed_bmp.
  - intros a acc. rewrite !rs_app. change (@nil emit) with (@nil emit ++ [] ++ []).
    eapply runs_app; [exact (runs_qws a acc (rs u) W [])|]. eapply runs_app; [apply Rc|]. cbn [app].
    replace (acc ++ rs u ++ s ++ t) with ((acc ++ rs u ++ s) ++ t) by now rewrite <- !app_assoc. apply R.
Qed.

Lemma runs_qstring w v : r_qstring w v -> Forall lexed w -> exists t, v = encode t /\ Forall (fun r => bmp r = true) t /\
  forall a, runs_to (MN a) (rs w) (MN a) [EQ t].
Proof.
  intros (q1 & m & u & q2 & -> & H1 & H2 & Hm & Hu) L. inversion L as [|? ? Lq L']; subst. apply Forall_app in L' as [Lm L'].
  apply Forall_app in L' as [Lu L']. apply Forall_inv in L'. destruct (runs_qvalue m v Hm Lm) as (t & -> & Bt & R). exists t. split; [reflexivity|].
  split; [exact Bt|]. intros a. rewrite rs_cons, !rs_app, rs_cons. tokc q1 34%N. tokc q2 34%N.
  change [EQ t] with (@nil emit ++ [] ++ [] ++ [EQ t] ++ []). eapply runs_step; [reflexivity|]. eapply runs_app; [apply R|].
  eapply runs_app; [apply (runs_qws a _ (rs u)); apply ws_toks; [exact Lu | now apply fws_types]|].
  eapply runs_step; [reflexivity | apply runs_nil].
Qed.

(** ** Literals, dot-atoms, ports *)
Lemma runs_literal m a acc : Forall (fun r => r <> 93%N) m -> runs_to (ML a acc) m (ML a (acc ++ m)) [].
Proof.
  intros H. revert acc. induction H as [|r m Hr H IH]; intros acc; [rewrite app_nil_r; apply runs_nil|].
  replace (acc ++ r :: m) with ((acc ++ [r]) ++ m) by now rewrite <- app_assoc.
  change (@nil emit) with (@nil emit ++ []). eapply runs_step; [|apply IH]. cbn [step]. destruct (N.eqb_spec r 93); [contradiction | reflexivity].
Qed.

Lemma runs_bracketed d a : bracketed d -> runs_to (MN a) d (MN a) [EL d].
Proof.
  intros (m & -> & H). change (bs "[") with [91%N]. change (bs "]") with [93%N].
  change [EL ([91%N] ++ m ++ [93%N])] with (@nil emit ++ [] ++ [EL (([91%N] ++ m) ++ [93%N])] ++ []).
  eapply runs_step; [reflexivity|]. eapply runs_app; [apply (runs_literal m a [91%N])|].
  - eapply Forall_impl; [|exact H]. intros r Hr E. subst r. discriminate.
  - eapply runs_step; [reflexivity | apply runs_nil].
Qed.

Definition dote (r : rune) : emit := if (r =? 46)%N then ES r else EA r.
Definition adot (r : rune) : bool := atext_char r || (r =? 46)%N.

Lemma runs_adots a d : Forall (fun r => adot r = true) d -> runs_to (MN a) d (MN a) (map dote d).
Proof.
  induction 1 as [|r d Hr H IH]; [apply runs_nil|]. cbn [map]. change (dote r :: map dote d) with ([dote r] ++ map dote d).
  eapply runs_step; [|exact IH]. unfold dote, adot in *. destruct (N.eqb_spec r 46) as [->|N]; [reflexivity|].
  rewrite orb_false_r in Hr. now apply step_atext.
Qed.

Lemma join_adot l : Forall atom l -> Forall (fun r => adot r = true) (join (bs ".") l).
Proof.
  induction 1 as [|x l Hx H IH]; [constructor|].
  assert (X : Forall (fun r => adot r = true) x) by (destruct Hx as [_ Hx]; eapply Forall_impl; [|exact Hx]; intros r Hr; cbv beta in Hr; unfold adot; now rewrite Hr).
  destruct l as [|y l]; [exact X|]. change (join (bs ".") (x :: y :: l)) with (x ++ bs "." ++ join (bs ".") (y :: l)).
  apply Forall_app. split; [exact X|]. apply Forall_app. split; [repeat constructor | exact IH].
Qed.

Lemma dot_atom_adot d : dot_atom d -> Forall (fun r => adot r = true) d.
Proof. intros (l & _ & H & [-> | ->]); [now apply join_adot|]. apply Forall_app. split; [now apply join_adot | repeat constructor]. Qed.

Lemma dot_atom_head d : dot_atom d -> exists r d', d = r :: d' /\ atext_char r = true.
Proof.
  intros (l & N & H & E). destruct H as [|x l [Nx Hx] H]; [congruence|]. destruct Hx as [|r x Hr Hx]; [exfalso; apply Nx; reflexivity|].
  destruct E as [-> | ->]; (destruct l as [|y l]; [|change (join (bs ".") ((r :: x) :: y :: l)) with (r :: x ++ bs "." ++ join (bs ".") (y :: l))]); cbn [app join]; eauto.
Qed.

Lemma digit_atext r : digit_char r = true -> atext_char r = true.
Proof. apply char_all; [vm_compute; reflexivity|]. intros c Hc. unfold digit_char. revert c Hc. hi_range. reflexivity. Qed.

(** ** Encoded words *)
Inductive encE : list emit -> list (list rune) -> Prop :=
| ee_nil : encE [] []
| ee_gap : forall E l, encE E l -> encE (EG :: E) l
| ee_word : forall e E l, enc1 e -> encE E l -> encE (map EA e ++ E) (e :: l).

Lemma encE_gaps k E l : encE E l -> encE (repeat EG k ++ E) l.
Proof. intros H. induction k; cbn; [exact H | now constructor]. Qed.

Definition emits (w : word) (E : list emit) : Prop := forall a, runs_to (MN a) (rs w) (MN a) E.

Lemma emits_app u v E F : emits u E -> emits v F -> emits (u ++ v) (E ++ F).
Proof. intros H1 H2 a. rewrite rs_app. eapply runs_app; [apply H1 | apply H2]. Qed.

Lemma emits_nil : emits [] [].
Proof. intros a. apply runs_nil. Qed.

Lemma emits_em w E a x : emits w E -> em (MN a) (rs w ++ x) = E ++ em (MN a) x.
Proof. intros H. rewrite em_app, (runs_mo _ _ _ _ (H a)), (runs_em _ _ _ _ (H a)). reflexivity. Qed.

Lemma emits_fun w E F : emits w E -> emits w F -> E = F.
Proof. intros H1 H2. specialize (H1 true). specialize (H2 true). unfold runs_to in *. congruence. Qed.

Lemma emits_cfws u : opt_cfws u -> Forall lexed u -> exists k, emits u (repeat EG k) /\ (k = 0 -> u = []) /\ (u = [] -> k = 0).
Proof.
  intros H L. destruct (gapw_cfws u H L) as (k & R & E). exists k. split; [exact R|]. split; [exact E|]. intros ->.
  specialize (R true). destruct k; [reflexivity | discriminate].
Qed.

Lemma emits_atom x : Forall lexed x -> Forall (fun r => atext_char r = true) (rs x) -> emits x (map EA (rs x)).
Proof. intros L H a. now apply runs_atoms. Qed.

Lemma emits_enc e : enc1 (rs e) -> emits e (map EA (rs e)).
Proof. intros H a. apply runs_atoms. now apply enc1_atext. Qed.

Lemma tamed_emits b w E a x : emits w E -> tamed b (MN a) (rs w ++ x) -> tamed b (MN a) x.
Proof. intros R. exact (tamed_runs _ _ _ _ _ _ (R a)). Qed.

Lemma encs_lang rd w v : r_encs rd w v -> lang g_encs w.
Proof.
  unfold g_encs. induction 1 as [u e u' Hu He Hu'|u e u' w v Hu He Hu' Hw IH].
  - rewrite <- (app_nil_r (u ++ e ++ u')). apply lang_seq_i; [|apply lang_star_nil]. repeat apply lang_seq_i; auto.
  - replace (u ++ e ++ u' ++ w) with ((u ++ e ++ u') ++ w) by now rewrite <- !app_assoc. apply lang_seq_i; [repeat apply lang_seq_i; auto|].
    apply lang_seq in IH as (x & y & -> & H1 & H2). now apply lang_star_cons.
Qed.

Lemma encs_em rd w v : r_encs rd w v -> Forall lexed w -> forall b a x, tamed b (MN a) (rs w ++ x) ->
  b = true /\ exists E l, emits w E /\ encE E l /\ l <> [] /\ v = enc_value rd l /\
    (noA E \/ exists e u r, w = e ++ u ++ r /\ enc1 (rs e) /\ opt_cfws u /\ (r = [] \/ lang g_encs r)).
Proof.
  induction 1 as [u e u' Hu He Hu'|u e u' w v Hu He Hu' Hw IH]; intros L b a x K.
  - apply Forall_app in L as [L1 L]. apply Forall_app in L as [L2 L3].
    destruct (emits_cfws u Hu L1) as (k & R1 & Z1 & _). destruct (emits_cfws u' Hu' L3) as (k' & R3 & Z3 & _).
    rewrite !rs_app, <- !app_assoc in K. apply (tamed_emits _ _ _ _ _ R1) in K.
    destruct (T_enc _ _ _ _ L2 He K) as (Hb & E1). split; [exact Hb|].
    exists (repeat EG k ++ map EA (rs e) ++ repeat EG k'), [rs e].
    split; [auto using emits_app, emits_enc|]. split; [apply encE_gaps, ee_word; [exact E1|]; rewrite <- (app_nil_r (repeat EG k')); apply encE_gaps; constructor|].
    split; [discriminate|]. split; [unfold enc_value; cbn [flat_map]; rewrite app_nil_r; unfold rs; now rewrite <- text_lexed|].
    destruct k; [right | left; exact I]. rewrite (Z1 eq_refl). exists e, u', []. rewrite app_nil_r. auto.
  - apply Forall_app in L as [L1 L]. apply Forall_app in L as [L2 L]. apply Forall_app in L as [L3 L4].
    destruct (emits_cfws u Hu L1) as (k & R1 & Z1 & _). destruct (emits_cfws u' Hu' L3) as (k' & R3 & Z3 & _).
    rewrite !rs_app, <- !app_assoc in K. apply (tamed_emits _ _ _ _ _ R1) in K.
    destruct (T_enc _ _ _ _ L2 He K) as (Hb & E1). split; [exact Hb|].
    apply (tamed_emits _ _ _ _ _ (emits_enc e E1)) in K. apply (tamed_emits _ _ _ _ _ R3) in K.
    destruct (IH L4 _ _ _ K) as (_ & E & l & RE & HE & Nl & Ev & _).
    exists (repeat EG k ++ map EA (rs e) ++ repeat EG k' ++ E), (rs e :: l).
    split; [auto using emits_app, emits_enc|]. split; [apply encE_gaps, ee_word; [exact E1|]; now apply encE_gaps|].
    split; [discriminate|]. split; [rewrite Ev; unfold enc_value; cbn [flat_map]; f_equal; unfold rs; now rewrite <- text_lexed|].
    destruct k; [right | left; exact I]. rewrite (Z1 eq_refl). exists e, u', w. split; [reflexivity|]. split; [exact E1|]. split; [exact Hu'|]. right. now apply (encs_lang rd w v).
Qed.

(** ** Words *)
Definition pos (k : nat) : bool := match k with O => false | _ => true end.

Inductive wordE (rd : charset_reader) : wkind -> list emit -> gostring -> Prop :=
| we_enc : forall E l, encE E l -> l <> [] -> wordE rd KEnc E (enc_value rd l)
| we_atom : forall k a k', atom a -> enc_words a = None ->
    wordE rd (KAtom (pos k) (pos k')) (repeat EG k ++ map EA a ++ repeat EG k') (encode a)
| we_quo : forall k t k', wordE rd KQuo (repeat EG k ++ [EQ t] ++ repeat EG k') (encode t).

Lemma pos_nonempty k (u : word) : (k = 0 -> u = []) -> (u = [] -> k = 0) -> nonempty u = pos k.
Proof.
  intros H1 H2. destruct u; destruct k; cbn; try reflexivity.
  - specialize (H2 eq_refl). discriminate.
  - specialize (H1 eq_refl). discriminate.
Qed.

Lemma word_em rd kd w v : r_word rd kd w v -> Forall lexed w ->
  (kd = KEnc -> exists b a x, tamed b (MN a) (rs w ++ x)) ->
  exists E, emits w E /\ wordE rd kd E v.
Proof.
  intros [w0 v0 H|u a u' Hu Ha Hu' N|u q u' v0 Hu Hq Hu'] L K.
  - destruct (K eq_refl) as (b & a & x & K'). destruct (encs_em _ _ _ H L _ _ _ K') as (_ & E & l & R & HE & Nl & -> & _).
    exists E. split; [exact R | now constructor].
  - apply Forall_app in L as [L1 L]. apply Forall_app in L as [L2 L3].
    destruct (emits_cfws u Hu L1) as (k & R1 & Z1 & Y1). destruct (emits_cfws u' Hu' L3) as (k' & R3 & Z3 & Y3).
    pose proof (lang_atom a L2 Ha) as A. fold (rs a) in A.
    exists (repeat EG k ++ map EA (rs a) ++ repeat EG k'). split; [apply emits_app; [exact R1|]; apply emits_app; [|exact R3]; apply emits_atom; [exact L2 | apply A]|].
    rewrite (pos_nonempty k u), (pos_nonempty k' u') by assumption. rewrite text_lexed by assumption. fold (rs a). apply we_atom; [exact A|].
    destruct (enc_words (rs a)) as [l|] eqn:E; [|reflexivity]. exfalso. apply N.
    rewrite (lexed_toks a) by assumption. fold (rs a). assert (X : is_enc (rs a) = true) by (unfold is_enc; now rewrite E).
    apply is_enc_encl in X as [X1 X2]. now apply encl_lang.
  - apply Forall_app in L as [L1 L]. apply Forall_app in L as [L2 L3].
    destruct (emits_cfws u Hu L1) as (k & R1 & _). destruct (emits_cfws u' Hu' L3) as (k' & R3 & _).
    destruct (runs_qstring q v0 Hq L2) as (t & -> & _ & R). exists (repeat EG k ++ [EQ t] ++ repeat EG k').
    split; [|constructor]. apply emits_app; [exact R1|]. apply emits_app; [exact R | exact R3].
Qed.
