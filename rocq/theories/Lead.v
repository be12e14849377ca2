(** White space and comments at the very beginning of a list: the selected reading is the one without
    them, with one more node that the walker ignores. *)
From Coq Require Import String List NArith ZArith Bool Arith Lia.
From Verif Require Import Lexer Grammar Utf8 Strs Mime GoTime Parser Walker Api Spec ParserFacts
  WalkerFacts Static Total Cfws First.
Import ListNotations.

(** ** What can follow *)
(** token types that a gap begins with, and the double quote *)
Definition blank_types : list ttype := [T_SP; T_TAB; T_CR; T_LF; T_LParens].
Definition firm (w : word) : Prop := match w with [] => False | t :: _ => memb (tt t) blank_types = false end.
Definition solid (w : word) : Prop := match w with [] => False | t :: _ => memb (tt t) (T_DQuote :: blank_types) = false end.

Lemma solid_firm w : solid w -> firm w.
Proof. destruct w as [|t w]; cbn [solid firm]; [auto|]. unfold memb. cbn [existsb]. intros H. apply orb_false_iff in H as [_ H]. exact H. Qed.

Lemma cfws_first t w : lang (Nt R_cfws) (t :: w) -> memb (tt t) blank_types = true /\ tt t <> T_DQuote.
Proof.
  intros L. apply first_lang in L. assert (S : subset (first (Nt R_cfws)) blank_types = true) by (vm_compute; reflexivity).
  pose proof (subset_In _ _ _ S L) as I. split; [now apply memb_In|]. intros E. rewrite E in I. revert I. clear. cbn. intros [K|[K|[K|[K|[K|[]]]]]]; discriminate K.
Qed.

Lemma firm_scan t w : memb (tt t) blank_types = false -> tscan 0 (t :: w) = t :: tscan 0 w.
Proof.
  intros H. assert (K : tkind (tt t) = KClose \/ tkind (tt t) = KBack \/ tkind (tt t) = KOther).
  { unfold tkind. unfold blank_types, memb in *. cbn [existsb] in *. repeat (apply orb_false_iff in H as [? H]).
    repeat match goal with K : (_ =? _)%N = false |- _ => rewrite K; clear K end. cbn [orb].
    destruct (tt t =? T_RParens)%N; [auto|]. destruct (tt t =? T_Backslash)%N; auto. }
  cbn [tscan]. destruct K as [K|[K|K]]; rewrite K; reflexivity.
Qed.

Lemma cfws_skips w : lang (Nt R_cfws) w -> skips w.
Proof. intros L. apply lang_nt in L as [f [D <-]]. now apply skips_cfws. Qed.

(** Two gaps that something firm follows end at the same place. *)
Lemma cut_gap u v g w : u ++ v = g ++ w -> lang (Nt R_cfws) u -> lang (Nt R_cfws) g -> firm v -> firm w -> u = g /\ v = w.
Proof.
  intros E Lu Lg Fv Fw. pose proof (cfws_skips _ Lu) as Su. pose proof (cfws_skips _ Lg) as Sg.
  destruct (app_eq_app _ _ _ _ E) as [l [[E1 E2]|[E1 E2]]].
  - (* u = g ++ l, w = l ++ v *) destruct l as [|t l]; [rewrite app_nil_r in E1; subst; auto|]. exfalso. subst w. cbn [firm app] in Fw.
    pose proof (Su 0 []) as K. rewrite app_nil_r, E1, (Sg 0), firm_scan in K by exact Fw. cbn in K. discriminate.
  - destruct l as [|t l]; [rewrite app_nil_r in E1; subst; auto|]. exfalso. subst v. cbn [firm app] in Fv.
    pose proof (Sg 0 []) as K. rewrite app_nil_r, E1, (Su 0), firm_scan in K by exact Fv. cbn in K. discriminate.
Qed.

Lemma sel_opt a V w f w' : sel (Opt a) V w f w' -> (viable a V w /\ sel a V w f w') \/ (f = [] /\ w' = w).
Proof.
  unfold Opt. intros H. remember (Alt a Eps) as g eqn:Eg. destruct H; try discriminate; injection Eg as -> ->; [left; auto|]. right.
  match goal with K : sel Eps _ _ _ _ |- _ => inversion K; auto end.
Qed.

Section Lead.
Variable gw : word.
Hypothesis G : lang (Nt R_cfws) gw.

Lemma gw_first : exists t w, gw = t :: w /\ memb (tt t) blank_types = true /\ tt t <> T_DQuote.
Proof.
  destruct gw as [|t w]; [exfalso; apply lang_nullable in G; vm_compute in G; discriminate|].
  exists t, w. split; [reflexivity|]. now apply (cfws_first t w).
Qed.

(** a gap in front changes nothing *)
Definition lead (V : word -> Prop) : Prop := forall w, solid w -> (V (gw ++ w) <-> V w).

(** ** Expressions that begin with an optional gap *)
Definition after_gap (x : gexp) : bool := negb (nullable x) && forallb (fun t => negb (memb t blank_types)) (first x).

Fixpoint spine (ok : rule -> bool) (g : gexp) : bool :=
  match g with
  | Cls ts => subset ts [T_DQuote]
  | Eps => true
  | Nt r => ok r
  | Seq a b => match a with
               | Alt (Nt R_cfws) Eps => after_gap b
               | _ => spine ok a && (if nullable a then spine ok b else true)
               end
  | Alt a b => spine ok a && spine ok b
  | Star a => spine ok a && negb (nullable a)
  end.

Definition spine_rule (r : rule) : bool :=
  match r with
  | R_addressList | R_obsAddrList | R_address | R_mailbox | R_nameAddr | R_displayName | R_word | R_angleAddr
  | R_obsAngleAddr | R_addrSpec | R_localPart | R_obsLocalPart | R_group => true
  | _ => false
  end.

Lemma spine_body r : spine_rule r = true -> spine spine_rule (body r) = true /\ nullable (body r) = false.
Proof.
  assert (K : forall r, implb (spine_rule r) (spine spine_rule (body r) && negb (nullable (body r))) = true).
  { apply all_rules_forall. vm_compute. reflexivity. }
  intros H. specialize (K r). rewrite H in K. cbn in K. apply andb_true_iff in K as [K1 K2]. split; [exact K1 | now apply negb_true_iff].
Qed.

(** the two forms of a sequence *)
Lemma spine_seq a b : spine spine_rule (Seq a b) = true ->
  (a = Opt (Nt R_cfws) /\ after_gap b = true) \/
  (spine spine_rule a = true /\ (nullable a = true -> spine spine_rule b = true)).
Proof.
  intros H. cbn [spine] in H.
  assert (D : (a = Opt (Nt R_cfws) /\ after_gap b = true) \/ spine spine_rule a && (if nullable a then spine spine_rule b else true) = true).
  { destruct a as [ts| |r|a1 a2|a1 a2|a]; try (right; exact H). destruct a1 as [ts| |r|? ?|? ?|?]; try (right; exact H).
    destruct r; try (right; exact H). destruct a2 as [ts| |r|? ?|? ?|?]; try (right; exact H). left. split; [reflexivity | exact H]. }
  destruct D as [D|D]; [left; exact D|]. right. apply andb_true_iff in D as [D1 D2]. split; [exact D1|]. intros N. now rewrite N in D2.
Qed.

Lemma after_gap_firm x V w : after_gap x = true -> viable x V w -> firm w.
Proof.
  intros H (u & v & -> & L & _). apply andb_true_iff in H as [N F]. apply negb_true_iff in N.
  destruct u as [|t u]; [apply lang_nullable in L; congruence|]. cbn [firm app]. apply first_lang in L. rewrite forallb_forall in F. specialize (F _ L). now apply negb_true_iff in F.
Qed.

Lemma viable_seq a b V w : viable (Seq a b) V w <-> viable a (viable b V) w.
Proof.
  split.
  - intros (u & v & -> & L & Hv). apply lang_seq in L as (u1 & u2 & -> & L1 & L2). exists u1, (u2 ++ v). rewrite app_assoc. split; [reflexivity|]. split; [exact L1|]. now exists u2, v.
  - intros (u1 & r & -> & L1 & u2 & v & -> & L2 & Hv). exists (u1 ++ u2), v. rewrite app_assoc. split; [reflexivity|]. split; [|exact Hv]. apply lang_seq. now exists u1, u2.
Qed.

Lemma viable_alt a b V w : viable (Alt a b) V w <-> viable a V w \/ viable b V w.
Proof.
  split.
  - intros (u & v & -> & L & Hv). apply lang_alt in L as [L|L]; [left | right]; now exists u, v.
  - intros [(u & v & -> & L & Hv)|(u & v & -> & L & Hv)]; exists u, v; (split; [reflexivity|]; split; [|exact Hv]); apply lang_alt; auto.
Qed.

Lemma viable_nt r V w : viable (Nt r) V w <-> viable (body r) V w.
Proof. split; intros (u & v & -> & L & Hv); exists u, v; (split; [reflexivity|]; split; [|exact Hv]); now apply lang_nt in L || apply lang_nt. Qed.

Lemma viable_eps V w : viable Eps V w <-> V w.
Proof.
  split.
  - intros (u & v & -> & L & Hv). apply lang_eps in L. subst. exact Hv.
  - intros H. exists [], w. split; [reflexivity|]. split; [now apply lang_eps | exact H].
Qed.

Lemma viable_star a V w : viable (Star a) V w <-> V w \/ viable a (viable (Star a) V) w.
Proof.
  split.
  - intros (u & v & -> & L & Hv). apply lang_star in L as [->|(u1 & u2 & -> & L1 & L2)]; [now left|]. right. exists u1, (u2 ++ v). rewrite app_assoc. split; [reflexivity|]. split; [exact L1|]. now exists u2, v.
  - intros [H|(u1 & r & -> & L1 & u2 & v & -> & L2 & Hv)].
    + exists [], w. split; [reflexivity|]. split; [|exact H]. apply lang_star. now left.
    + exists (u1 ++ u2), v. rewrite app_assoc. split; [reflexivity|]. split; [|exact Hv]. apply lang_star. right. now exists u1, u2.
Qed.

(** after the optional gap the same thing follows *)
Lemma gap_then_bare x V w : after_gap x = true -> solid w -> (viable (Opt (Nt R_cfws)) (viable x V) w <-> viable x V w).
Proof.
  intros A S. unfold Opt. rewrite viable_alt, viable_eps. split; [|now right]. intros [(u & v & E & L & _)|H]; [|exact H]. exfalso.
  destruct u as [|t u]; [apply lang_nullable in L; vm_compute in L; discriminate|]. subst w. apply solid_firm in S. cbn [firm app] in S. destruct (cfws_first _ _ L) as [K _]. congruence.
Qed.

Lemma gap_then_led x V w : after_gap x = true -> solid w -> (viable (Opt (Nt R_cfws)) (viable x V) (gw ++ w) <-> viable x V w).
Proof.
  intros A S. unfold Opt. rewrite viable_alt, viable_eps. split.
  - intros [(u & v & E & L & H)|H].
    + destruct (cut_gap u v gw w (eq_sym E) L G (after_gap_firm x V v A H) (solid_firm w S)) as [_ ->]. exact H.
    + exfalso. apply after_gap_firm in H; [|exact A]. destruct gw_first as (t & w0 & E & K & _). rewrite E in H. cbn [firm app] in H. congruence.
  - intros H. left. exists gw, w. auto.
Qed.

(** ** Acceptance *)
Lemma spine_lead n : forall g V, rk g <= n -> wfg g = true -> spine spine_rule g = true -> (nullable g = true -> lead V) -> lead (viable g V).
Proof.
  induction n as [|n IH]; intros g V R W P NV; [pose proof (rk_pos g); lia|]. intros w S.
  destruct g as [ts| |r|a b|a b|a].
  - cbn [spine] in P. destruct gw_first as (t & w0 & E & _ & K). split; intros (u & v & E1 & L & _); apply lang_cls in L as (t1 & -> & I); apply (subset_In _ _ _ P) in I; cbn in I; destruct I as [I|[]].
    + rewrite E in E1. injection E1 as <- _. congruence.
    + subst w. cbn [solid app] in S. unfold memb in S. cbn [existsb] in S. rewrite <- I, N.eqb_refl in S. discriminate.
  - rewrite !viable_eps. now apply NV.
  - cbn [spine] in P. destruct (spine_body r P) as [P1 P2]. rewrite !viable_nt. apply IH; [|apply wfg_body | exact P1 | intros K; congruence | exact S]. pose proof (rk_body r). lia.
  - rewrite !viable_seq. cbn [wfg] in W. apply andb_true_iff in W as [W _]. apply andb_true_iff in W as [W1 W2].
    destruct (spine_seq a b P) as [[-> A]|[P1 P2]]; [rewrite gap_then_led, gap_then_bare by assumption; reflexivity|].
    assert (R1 : rk a <= n) by (unfold rk in R |- *; cbn [rk_t] in R; lia).
    apply IH; [exact R1 | exact W1 | exact P1 | | exact S]. intros Na. apply IH; [| exact W2 | exact (P2 Na) |].
    + unfold rk in R |- *. cbn [rk_t] in R. rewrite Na in R. lia.
    + intros Nb. apply NV. unfold nullable in *. cbn [nullable_t]. now rewrite Na, Nb.
  - rewrite !viable_alt. cbn [wfg] in W. apply andb_true_iff in W as [W _]. apply andb_true_iff in W as [W1 W2]. cbn [spine] in P. apply andb_true_iff in P as [P1 P2].
    unfold rk in R. cbn [rk_t] in R. fold (rk a) (rk b) in R. unfold nullable in NV. cbn [nullable_t] in NV. fold (nullable a) (nullable b) in NV.
    assert (Ea : viable a V (gw ++ w) <-> viable a V w) by (apply (IH a V); [lia | exact W1 | exact P1 | intros K; apply NV; now rewrite K | exact S]).
    assert (Eb : viable b V (gw ++ w) <-> viable b V w) by (apply (IH b V); [lia | exact W2 | exact P2 | intros K; apply NV; rewrite K; apply orb_true_r | exact S]).
    rewrite Ea, Eb. reflexivity.
  - cbn [spine] in P. apply andb_true_iff in P as [P1 P2]. apply negb_true_iff in P2. cbn [wfg] in W. apply andb_true_iff in W as [W _]. apply andb_true_iff in W as [W _].
    unfold rk in R. cbn [rk_t] in R. fold (rk a) in R.
    assert (Ea : viable a (viable (Star a) V) (gw ++ w) <-> viable a (viable (Star a) V) w) by (apply (IH a (viable (Star a) V)); [lia | exact W | exact P1 | intros K; congruence | exact S]).
    rewrite !viable_star, Ea. pose proof (NV eq_refl w S) as Ev. rewrite Ev. reflexivity.
Qed.

Lemma leads g V : wfg g = true -> spine spine_rule g = true -> (nullable g = true -> lead V) -> lead (viable g V).
Proof. intros. now apply (spine_lead (rk g)). Qed.

(** ** Selection *)
(** [f'] is [f] with a gap put in at the very beginning *)
Inductive led : list tree -> list tree -> Prop :=
| led_here : forall f ch, derives (body R_cfws) ch -> led f (Node R_cfws ch :: f)
| led_in : forall r ch ch' f, spine_rule r = true -> led ch ch' -> led (Node r ch :: f) (Node r ch' :: f).

Lemma led_app f f' h : led f f' -> led (f ++ h) (f' ++ h).
Proof. intros H. destruct H; cbn [app]; now constructor. Qed.

Lemma sel_spine g V w f w' : sel g V w f w' -> dec V -> wfg g = true -> spine spine_rule g = true -> (nullable g = true -> lead V) ->
  solid w -> V w' ->
  (f = [] /\ w' = w /\ sel g V (gw ++ w) [] (gw ++ w)) \/ (exists f', led f f' /\ sel g V (gw ++ w) f' w').
Proof.
  induction 1 as [ts V t w H|V w|r V w f w' H IH|a b V w f1 w1 f2 w2 Ha IHa Hb IHb|a b V w f w' Hv H IH|a b V w f w' Hv H IH|a V w f1 w1 f2 w2 Hv Ha IHa Hs IHs|a V w Hv]; intros D W P NV S Vw.
  - exfalso. cbn [spine] in P. apply (subset_In _ _ _ P) in H. cbn in H. destruct H as [H|[]]. cbn [solid] in S. unfold memb in S. cbn [existsb] in S. rewrite <- H, N.eqb_refl in S. discriminate.
  - left. repeat split. constructor.
  - right. cbn [spine] in P. destruct (spine_body r P) as [P1 P2]. destruct IH as [(-> & -> & _)|(f' & L & K)]; auto using wfg_body.
    + intros K; congruence.
    + exfalso. apply sel_sound in H as [H _]. rewrite (nullable_complete _ _ H eq_refl) in P2. discriminate.
    + exists [Node r f']. split; [now constructor | now constructor].
  - cbn [wfg] in W. apply andb_true_iff in W as [W _]. apply andb_true_iff in W as [W1 W2].
    assert (Vb : viable b V w1) by (eapply sel_viable; eassumption).
    destruct (spine_seq a b P) as [[-> A]|[P1 P2]].
    + right. assert (Db : dec (viable b V)) by (now apply viable_dec).
      (* without the gap nothing is read *)
      assert (E : f1 = [] /\ w1 = w).
      { apply sel_opt in Ha as [[(u & v & E & L & _) _]|K]; [|exact K].
        exfalso. destruct u as [|t u]; [apply lang_nullable in L; vm_compute in L; discriminate|]. apply solid_firm in S. rewrite E in S. cbn [firm app] in S. destruct (cfws_first _ _ L) as [K _]. congruence. }
      destruct E as [-> ->].
      assert (Vc : viable (Nt R_cfws) (viable b V) (gw ++ w)) by (exists gw, w; auto).
      destruct (sel_exists (Nt R_cfws) (viable b V) (gw ++ w) (wfg_nt _) Db Vc) as (fg & wg & Sg & Vg).
      destruct (sel_sound _ _ _ _ _ Sg) as [Dg Yg].
      destruct (cut_gap (yields fg) wg gw w (eq_sym Yg)) as [_ ->]; [exists fg; auto | exact G | now apply (after_gap_firm b V) | now apply solid_firm |].
      apply derives_nt in Dg as (ch & -> & Dg). exists ([Node R_cfws ch] ++ f2). split; [cbn [app]; now apply led_here|].
      econstructor; [|exact Hb]. unfold Opt. apply S_altl; assumption.
    + destruct IHa as [(-> & -> & K)|(f' & L & K)]; [now apply viable_dec | exact W1 | exact P1 | | exact S | exact Vb | |].
      * intros Na. apply leads; [exact W2 | exact (P2 Na) |]. intros Nb. apply NV. unfold nullable in *. cbn [nullable_t]. now rewrite Na, Nb.
      * assert (Na : nullable a = true) by (apply sel_sound in Ha as [Ha _]; exact (nullable_complete _ _ Ha eq_refl)).
        destruct IHb as [(-> & -> & K2)|(f' & L & K2)]; auto.
        -- intros Nb. apply NV. unfold nullable in *. cbn [nullable_t]. now rewrite Na, Nb.
        -- left. repeat split. change (@nil tree) with (@nil tree ++ []). econstructor; eassumption.
        -- right. exists f'. split; [exact L|]. change f' with ([] ++ f'). econstructor; eassumption.
      * right. exists (f' ++ f2). split; [now apply led_app|]. econstructor; eassumption.
  - cbn [wfg] in W. apply andb_true_iff in W as [W _]. apply andb_true_iff in W as [W1 W2]. cbn [spine] in P. apply andb_true_iff in P as [P1 P2].
    assert (NVa : nullable a = true -> lead V) by (intros K; apply NV; unfold nullable in *; cbn [nullable_t]; now rewrite K).
    assert (Hv' : viable a V (gw ++ w)) by (now apply leads).
    destruct IH as [(-> & -> & K)|(f' & L & K)]; auto; [left; repeat split; now apply S_altl | right; exists f'; split; [exact L | now apply S_altl]].
  - cbn [wfg] in W. apply andb_true_iff in W as [W _]. apply andb_true_iff in W as [W1 W2]. cbn [spine] in P. apply andb_true_iff in P as [P1 P2].
    assert (NVa : nullable a = true -> lead V) by (intros K; apply NV; unfold nullable in *; cbn [nullable_t]; now rewrite K).
    assert (NVb : nullable b = true -> lead V) by (intros K; apply NV; unfold nullable in *; cbn [nullable_t]; rewrite K; apply orb_true_r).
    assert (Hv' : ~ viable a V (gw ++ w)) by (intros K; apply Hv; apply (leads a V W1 P1 NVa w S); exact K).
    destruct IH as [(-> & -> & K)|(f' & L & K)]; auto; [left; repeat split; now apply S_altr | right; exists f'; split; [exact L | now apply S_altr]].
  - pose proof W as W0. pose proof P as P0. cbn [wfg] in W. apply andb_true_iff in W as [W _]. apply andb_true_iff in W as [W _]. cbn [spine] in P. apply andb_true_iff in P as [P1 P2]. apply negb_true_iff in P2.
    assert (Ds : dec (viable (Star a) V)) by (apply viable_dec; assumption).
    assert (Hv' : viable a (viable (Star a) V) (gw ++ w)) by (apply leads; auto; congruence).
    right. destruct IHa as [(-> & -> & _)|(f' & L & K)]; auto; [congruence | | |].
    + eapply sel_viable; eassumption.
    + exfalso. apply sel_sound in Ha as [Ha _]. rewrite (nullable_complete _ _ Ha eq_refl) in P2. discriminate.
    + exists (f' ++ f2). split; [now apply led_app | now apply S_star1 with w1].
  - left. repeat split. apply S_star0. intros K. apply Hv. cbn [wfg] in W. apply andb_true_iff in W as [W _]. apply andb_true_iff in W as [W _]. cbn [spine] in P. apply andb_true_iff in P as [P1 P2]. apply negb_true_iff in P2.
    apply (leads a (viable (Star a) V) W P1 ltac:(congruence) w S). exact K.
Qed.

End Lead.

(** ** The walker *)
Lemma spine_node e r : spine_rule r = true -> exists o, (forall ch, enter_node e r ch = Some o) /\ match o with Some (n, _) => ignores_ws n | None => True end.
Proof.
  destruct r; try discriminate; intros _; (eexists; split; [intros ch; reflexivity|]); try exact I; unfold ignores_ws; repeat split; intros; reflexivity.
Qed.

Lemma led_feeds e f f' : led f f' -> forall p, ignores_ws p -> feeds e p f' = feeds e p f.
Proof.
  induction 1 as [f ch D|r ch ch' f Hr L IH]; intros p Hp; rewrite !feeds_cons.
  - f_equal. change (feed e p (Node R_cfws ch)) with (feeds e p ch). apply (feeds_quiet e p (body R_cfws)); [exact Hp | exact D | vm_compute; reflexivity].
  - f_equal. destruct (spine_node e r Hr) as (o & En & Ho). cbn [feed]. rewrite !En. destruct o as [[n er]|].
    + f_equal. now apply IH.
    + now apply IH.
Qed.

Lemma led_list e ch ch' : led ch ch' -> list_value e ch' = list_value e ch.
Proof. intros L. unfold list_value. rewrite (led_feeds e ch ch' L); [reflexivity|]. repeat split; intros; reflexivity. Qed.

(** ** Whole inputs *)
Lemma lead_nil gw w : lang (Nt R_cfws) gw -> solid w -> ((eq [] (gw ++ w)) <-> eq [] w).
Proof. intros _ S. split; intros E; [destruct w; [destruct S | destruct gw; discriminate E] | subst; destruct S]. Qed.

Lemma lead_selected gw w ch : lang (Nt R_cfws) gw -> solid w -> selected R_addressList w (Node R_addressList ch) ->
  exists ch', led ch ch' /\ selected R_addressList (gw ++ w) (Node R_addressList ch').
Proof.
  intros G S H. unfold selected in *. destruct (sel_spine gw G _ _ _ _ _ H dec_nil (wfg_nt _)) as [(K & _)|(f' & L & K)]; auto.
  - intros N. vm_compute in N. discriminate.
  - discriminate.
  - inversion L as [f c D|r c c' f Hr L']; subst.
    + exfalso. apply sel_sound in K as [K _]. apply derives_nt in K as (c0 & K & _). discriminate.
    + exists c'. auto.
Qed.

Lemma lead_lang gw w : lang (Nt R_cfws) gw -> solid w -> (lang (Nt R_addressList) (gw ++ w) <-> lang (Nt R_addressList) w).
Proof.
  intros G S. assert (K : forall x, lang (Nt R_addressList) x <-> viable (Nt R_addressList) (eq []) x).
  { intros x. split; [intros L; exists x, []; rewrite app_nil_r; auto|]. intros (u & v & -> & L & <-). now rewrite app_nil_r. }
  rewrite !K. apply (leads gw G); [apply wfg_nt | reflexivity | | exact S]. intros N. vm_compute in N. discriminate.
Qed.
