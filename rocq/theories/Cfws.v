(** Comments and folding white space: a scanner that deletes them, and the fact that the walker
    ignores them. *)
From Coq Require Import List NArith ZArith Bool Arith Lia.
From Verif Require Import Lexer Grammar Utf8 Strs Parser Walker Spec ParserFacts WalkerFacts Static.
Import ListNotations.

(** ** Character classes the scanner distinguishes *)

Inductive kind : Type := KWs | KOpen | KClose | KBack | KOther.

(** of a token type *)
Definition tkind (t : ttype) : kind :=
  if memb t [T_SP; T_TAB; T_CR; T_LF] then KWs
  else if N.eqb t T_LParens then KOpen
  else if N.eqb t T_RParens then KClose
  else if N.eqb t T_Backslash then KBack
  else KOther.

(** Delete comments and white space; [n] is the number of open parentheses. *)
Fixpoint tscan (n : nat) (w : word) : word :=
  match w with
  | [] => []
  | t :: w' =>
      match n with
      | O => match tkind (tt t) with
             | KWs => tscan 0 w'
             | KOpen => tscan 1 w'
             | _ => t :: tscan 0 w'
             end
      | S k => match tkind (tt t) with
               | KBack => match w' with _ :: w'' => tscan n w'' | [] => [] end
               | KOpen => tscan (S n) w'
               | KClose => tscan k w'
               | _ => tscan n w'
               end
      end
  end.

(** [u] is deleted at every depth *)
Definition skips (u : word) : Prop := forall n v, tscan n (u ++ v) = tscan n v.
(** [u] is deleted inside comments *)
Definition skips1 (u : word) : Prop := forall n v, tscan (S n) (u ++ v) = tscan (S n) v.

Lemma skips_nil : skips [].
Proof. intros n v. reflexivity. Qed.

Lemma skips_app u v : skips u -> skips v -> skips (u ++ v).
Proof. intros Hu Hv n w. now rewrite <- app_assoc, Hu, Hv. Qed.

Lemma skips1_app u v : skips1 u -> skips1 v -> skips1 (u ++ v).
Proof. intros Hu Hv n w. now rewrite <- app_assoc, Hu, Hv. Qed.

Lemma skips_skips1 u : skips u -> skips1 u.
Proof. intros H n v. apply H. Qed.

Lemma skips_ws t : In (tt t) [T_SP; T_TAB; T_CR; T_LF] -> skips [t].
Proof.
  intros H n v. cbn [app tscan]. unfold tkind. apply memb_In in H. rewrite H. destruct n; reflexivity.
Qed.

Lemma skips1_other t : tkind (tt t) = KOther \/ tkind (tt t) = KWs -> skips1 [t].
Proof. intros H n v. cbn [app tscan]. destruct H as [-> | ->]; reflexivity. Qed.

Lemma skips1_pair t1 t2 : tt t1 = T_Backslash -> skips1 [t1; t2].
Proof. intros H n v. cbn [app tscan]. rewrite H. reflexivity. Qed.

(** ** Rules that yield exactly one token *)

Definition single_rule (r : rule) : bool :=
  match r with
  | R_alpha | R_vchar | R_wsp | R_quotedChar | R_obsNoWSCTL | R_obsCtext | R_obsQtext | R_ctext
  | R_atext | R_qtext | R_dtext | R_tokenChar | R_encodedChar | R_unspaced => true
  | _ => false
  end.

(** Token types of single-token expressions. *)
Fixpoint types_t (n : nat) (g : gexp) : list ttype :=
  match n with
  | O => []
  | S n' =>
      match g with
      | Cls ts => ts
      | Nt r => types_t n' (body r)
      | Alt a b => types_t n' a ++ types_t n' b
      | _ => []
      end
  end.

Definition type_table : list (list ttype) := Eval vm_compute in
  map (fun r => if single_rule r then types_t 60 (Nt r) else []) all_rules.

(** The token types a single-token rule can yield. *)
Definition types (r : rule) : list ttype := look [] type_table r.

Definition subset (a b : list ttype) : bool := forallb (fun t => memb t b) a.

Fixpoint covers (s : list ttype) (g : gexp) : bool :=
  match g with
  | Cls ts => subset ts s
  | Nt r => single_rule r && subset (types r) s
  | Alt a b => covers s a && covers s b
  | _ => false
  end.

Lemma covers_rules r : implb (single_rule r) (covers (types r) (body r)) = true.
Proof. apply (all_rules_forall (fun r => implb (single_rule r) (covers (types r) (body r)))). vm_compute. reflexivity. Qed.

Lemma subset_In a b t : subset a b = true -> In t a -> In t b.
Proof.
  unfold subset. rewrite forallb_forall. intros H Ht. apply memb_In. auto.
Qed.

Lemma covers_derives g f : derives g f -> forall s, covers s g = true ->
  exists t, yields f = [t] /\ In (tt t) s.
Proof.
  induction 1; cbn [covers]; intros s Hs; try discriminate.
  - exists t. split; [reflexivity|]. eapply subset_In; eauto.
  - apply andb_true_iff in Hs as [Hr Hs]. pose proof (covers_rules r) as Hc. rewrite Hr in Hc.
    destruct (IHderives _ Hc) as [t [E Ht]]. exists t. rewrite yields_node. split; [exact E|].
    eapply subset_In; eauto.
  - apply andb_true_iff in Hs as [Ha Hb]. auto.
  - apply andb_true_iff in Hs as [Ha Hb]. auto.
Qed.

Lemma single_lang r w : single_rule r = true -> lang (Nt r) w -> exists t, w = [t] /\ In (tt t) (types r).
Proof.
  intros Hr [f [D <-]]. apply derives_nt in D as [ch [-> D]]. rewrite yields_node.
  pose proof (covers_rules r) as Hc. rewrite Hr in Hc. eapply covers_derives; eauto.
Qed.

Lemma single_body r f : single_rule r = true -> derives (body r) f -> exists t, yields f = [t] /\ In (tt t) (types r).
Proof.
  intros Hr H. destruct (single_lang r (yields f) Hr) as [t [E Ht]].
  - apply lang_nt. exists f. auto.
  - eauto.
Qed.

(** ** The languages of white space and comments are deleted *)

Lemma yields_cons t f : yields (t :: f) = yield t ++ yields f.
Proof. reflexivity. Qed.

Lemma yields_one t : yields [t] = yield t.
Proof. apply app_nil_r. Qed.

Lemma yields_concat fs : yields (concat fs) = concat (map yields fs).
Proof.
  induction fs as [|f fs IH]; cbn; [reflexivity|]. now rewrite yields_app, IH.
Qed.

Lemma skips_wsp f : derives (body R_wsp) f -> skips (yields f).
Proof.
  intros H. dinv H. cbn. apply skips_ws. cbn in *. tauto.
Qed.

Lemma skips_concat fs : Forall (fun f => skips (yields f)) fs -> skips (yields (concat fs)).
Proof.
  rewrite yields_concat. induction 1; cbn; [apply skips_nil | now apply skips_app].
Qed.

Lemma skips1_concat fs : Forall (fun f => skips1 (yields f)) fs -> skips1 (yields (concat fs)).
Proof.
  rewrite yields_concat. induction 1; cbn; [apply skips_skips1, skips_nil | now apply skips1_app].
Qed.

Lemma skips_wsps f : derives (Star (Nt R_wsp)) f -> skips (yields f).
Proof.
  intros H. apply derives_star in H as [fs [-> Hfs]]. apply skips_concat.
  eapply Forall_impl; [|exact Hfs]. intros f H. dinv H. rewrite yields_node. now apply skips_wsp.
Qed.

Lemma skips_crlf f : derives (body R_crlf) f -> skips (yields f).
Proof.
  intros H. dinv H. rewrite yields_app. apply skips_app; cbn; apply skips_ws; cbn in *; tauto.
Qed.

Lemma skips_obsFWS f : derives (body R_obsFWS) f -> skips (yields f).
Proof.
  intros H. dinv H. rewrite !yields_app, !yields_node.
  repeat apply skips_app; auto using skips_wsp, skips_wsps, skips_crlf.
Qed.

Lemma skips_fws f : derives (body R_fws) f -> skips (yields f).
Proof.
  intros H. dinv H; rewrite ?yields_app, ?yields_node;
    repeat apply skips_app; auto using skips_wsp, skips_wsps, skips_crlf, skips_obsFWS, skips_nil.
Qed.

Lemma types_forall r (P : ttype -> bool) t : forallb P (types r) = true -> In t (types r) -> P t = true.
Proof. intros H. rewrite forallb_forall in H. apply H. Qed.

Lemma skips1_ctext f : derives (body R_ctext) f -> skips1 (yields f).
Proof.
  intros H. destruct (single_body R_ctext f eq_refl H) as [t [-> Ht]]. apply skips1_other.
  apply (types_forall R_ctext (fun t => match tkind t with KOther => true | _ => false end)) in Ht;
    [|vm_compute; reflexivity].
  left. destruct (tkind (tt t)); try discriminate. reflexivity.
Qed.

Lemma quoted_pair_yield f : derives (body R_quotedPair) f ->
  exists t1 t2, yields f = [t1; t2] /\ tt t1 = T_Backslash.
Proof.
  intros H. dinv H.
  - destruct (single_body R_quotedChar _ eq_refl H1) as [t2 [E _]].
    exists t, t2. rewrite yields_app, yields_node, E. split; [reflexivity|]. now destruct H0 as [<-|[]].
  - rewrite yields_node. dinv H; (destruct H0 as [E0|[]]; symmetry in E0);
      rewrite yields_app, ?yields_node; try (eexists _, _; split; [reflexivity | exact E0]).
    destruct (single_body R_obsNoWSCTL _ eq_refl H1) as [t2 [E _]].
    eexists _, _. rewrite E. split; [reflexivity | exact E0].
Qed.

(** Comments nest, so this goes by induction on the tree. *)
Definition cprop (t : tree) : Prop :=
  match t with
  | Leaf _ => True
  | Node R_comment ch => skips (yields ch)
  | Node R_ccontent ch => skips1 (yields ch)
  | Node _ _ => True
  end.

Lemma comment_skips t : all_nodes derived_node t -> cprop t.
Proof.
  induction t as [t|r ch IH] using tree_ind'; [intros _; exact I|].
  intros H. apply all_nodes_node in H as [D Hch].
  assert (IH' : Forall cprop ch).
  { clear D. induction ch; constructor; inversion IH; inversion Hch; subst; auto. }
  clear IH Hch. unfold derived_node in D.
  destruct r; try exact I.
  - (* ccontent *)
    cbn [cprop]. dinv D; rewrite yields_node.
    + now apply skips1_ctext.
    + destruct (quoted_pair_yield _ D) as [t1 [t2 [-> E]]]. now apply skips1_pair.
    + apply skips_skips1. now inversion IH'.
  - (* comment *)
    cbn [cprop]. apply derives_seq in D as [f1 [f2 [-> [D1 D2]]]].
    apply derives_seq in D2 as [f3 [f4 [-> [D3 D4]]]].
    apply derives_seq in D4 as [f5 [f6 [-> [D5 D6]]]]. dinv D1. dinv D6.
    destruct D1 as [E1|[]]. destruct D6 as [E6|[]]. symmetry in E1, E6.
    assert (S5 : skips (yields f5)).
    { dinv D5; [rewrite yields_node; now apply skips_fws | apply skips_nil]. }
    assert (S3 : skips1 (yields f3)).
    { apply derives_star in D3 as [fs [-> Hfs]]. apply skips1_concat.
      rewrite Forall_forall in *. intros f Hf. pose proof (Hfs f Hf) as Df.
      assert (Hin : forall x, In x f -> cprop x).
      { intros x Hx. apply IH'. rewrite !in_app_iff. right. left. apply in_concat. eauto. }
      clear - Df Hin. cbn [seqs] in Df. apply derives_seq in Df as [g1 [g2 [-> [A Bd]]]]. dinv Bd.
      rewrite yields_app, yields_node. apply skips1_app.
      - dinv A; [rewrite yields_node; now apply skips_skips1, skips_fws | apply skips_skips1, skips_nil].
      - specialize (Hin (Node R_ccontent ch)). apply Hin. rewrite in_app_iff. right. now left. }
    intros n v. rewrite !yields_app, <- !app_assoc. cbn [yields flat_map yield app].
    cbn [tscan]. rewrite E1. change (tkind T_LParens) with KOpen. cbn iota.
    assert (HE : tscan (S n) (yields f3 ++ yields f5 ++ t0 :: v) = tscan n v).
    { rewrite S3, S5. cbn [tscan]. rewrite E6. reflexivity. }
    change (flat_map yield f3) with (yields f3). change (flat_map yield f5) with (yields f5).
    destruct n; exact HE.
Qed.

Lemma skips_comment f : derives (body R_comment) f -> skips (yields f).
Proof.
  intros H. pose proof (derives_nodes _ _ (D_nt R_comment f H)) as HN. inversion HN; subst.
  exact (comment_skips _ H2).
Qed.

Lemma skips_cfws f : derives (body R_cfws) f -> skips (yields f).
Proof.
  intros H. apply derives_alt in H as [H|H].
  - cbn [seqs] in H. apply derives_seq in H as [f1 [f2 [-> [D1 D2]]]].
    rewrite yields_app. apply skips_app.
    + assert (HI : forall g, derives (seqs [Opt (Nt R_fws); Nt R_comment]) g -> skips (yields g)).
      { intros g Hg. dinv Hg; rewrite ?yields_app, ?yields_node; try apply skips_app;
          auto using skips_fws, skips_comment, skips_nil. }
      apply derives_plus in D1 as [g [fs [-> [Dg Hfs]]]]. rewrite yields_app. apply skips_app.
      * auto.
      * apply skips_concat. eapply Forall_impl; [|exact Hfs]. exact HI.
    + dinv D2; [rewrite yields_node; now apply skips_fws | apply skips_nil].
  - dinv H. rewrite yields_node. now apply skips_fws.
Qed.

Lemma skips_opt_cfws f : derives (Opt (Nt R_cfws)) f -> skips (yields f).
Proof.
  intros H. dinv H; [rewrite yields_node; now apply skips_cfws | apply skips_nil].
Qed.

Lemma skips_opt_fws f : derives (Opt (Nt R_fws)) f -> skips (yields f).
Proof.
  intros H. dinv H; [rewrite yields_node; now apply skips_fws | apply skips_nil].
Qed.

(** ** Transparency for the walker *)

Lemma feed_inert e p t (P : rule -> bool) :
  (forall r n, P r = true -> node_of_rule r n = true -> give p n = p) ->
  all_nodes (fun r _ => P r = true) t -> feed e p t = p.
Proof.
  intros HP. induction t as [t|r ch IH] using tree_ind'; intros H; [reflexivity|].
  apply all_nodes_node in H as [Hr Hch].
  assert (HF : fold_left (feed e) ch p = p).
  { clear Hr. induction ch as [|c ch IHch]; [reflexivity|].
    inversion IH; inversion Hch; subst. cbn [fold_left]. rewrite H1 by assumption. auto. }
  cbn [feed]. destruct (enter_node e r ch) as [[[n er]|]|] eqn:E; auto.
  apply HP with (r := r); [exact Hr|].
  change (fold_left (feed e) ch n) with (feeds e n ch). rewrite feeds_type.
  eapply enter_type; eassumption.
Qed.

Lemma feeds_inert e p f (P : rule -> bool) :
  (forall r n, P r = true -> node_of_rule r n = true -> give p n = p) ->
  Forall (all_nodes (fun r _ => P r = true)) f -> feeds e p f = p.
Proof.
  intros HP. induction 1 as [|t f Ht Hf IH]; [reflexivity|].
  rewrite feeds_cons, (feed_inert e p t P) by assumption. exact IH.
Qed.

(** A node that accepts nothing. *)
Lemma feeds_closed e p f : (forall n, give p n = p) -> feeds e p f = p.
Proof.
  intros HP. induction f as [|t f IH]; [reflexivity|]. rewrite feeds_cons.
  replace (feed e p t) with p; [exact IH|]. symmetry. clear IH f.
  apply (feed_inert e p t (fun _ => true)); [intros; apply HP|].
  induction t as [t|r ch IH] using tree_ind'; [exact I|]. apply all_nodes_node. auto.
Qed.

(** The rules below comments, white space and day names. *)
Definition quiet_tbl : list nat := Eval vm_compute in reach R_cfws ++ reach R_dayOfweek.
Definition quiet (r : rule) : bool := mem_rule r quiet_tbl.

Lemma quiet_closed : closed quiet = true.
Proof. vm_compute. reflexivity. Qed.

(** Nodes that ignore white space, comments and what is in them. *)
Definition ignores_ws (p : node) : Prop :=
  (forall v, give p (NFws v) = p) /\ (forall v, give p (NQuotedPair v) = p) /\
  (forall v, give p (NQuotedChar v) = p).

Lemma quiet_nodes r n : quiet r = true -> node_of_rule r n = true ->
  (exists v, n = NFws v) \/ (exists v, n = NQuotedPair v) \/ (exists v, n = NQuotedChar v).
Proof.
  intros Hq. destruct r; try (exfalso; revert Hq; vm_compute; discriminate);
    destruct n; try discriminate; eauto.
Qed.

Lemma feeds_quiet e p g f : ignores_ws p -> derives g f -> nts quiet g = true -> feeds e p f = p.
Proof.
  intros [H1 [H2 H3]] D Hg. apply feeds_inert with (P := quiet).
  - intros r n Hr Hn. destruct (quiet_nodes r n Hr Hn) as [[v ->]|[[v ->]|[v ->]]]; auto.
  - eapply derives_rules; eauto using quiet_closed.
Qed.
