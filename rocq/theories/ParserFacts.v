(** The parsing engine of Parser.v computes exactly what Spec.v specifies:
    [parse r w = Some t] iff [selected r w t], and it succeeds on exactly the sentences of [r]. *)
From Coq Require Import List NArith Bool Arith Lia.
From Verif Require Import Lexer Grammar Parser Spec.
Import ListNotations.

(** ** Generic facts *)

Lemma memb_In t ts : memb t ts = true <-> In t ts.
Proof.
  unfold memb. rewrite existsb_exists. split.
  - intros [x [Hx He]]. apply N.eqb_eq in He. now subst.
  - intros H. exists t. split; [exact H | apply N.eqb_refl].
Qed.

Lemma yields_app f1 f2 : yields (f1 ++ f2) = yields f1 ++ yields f2.
Proof. apply flat_map_app. Qed.

Lemma yields_node r f : yields [Node r f] = yields f.
Proof. unfold yields. cbn. apply app_nil_r. Qed.

Lemma lang_cls ts w : lang (Cls ts) w <-> exists t, w = [t] /\ In (tt t) ts.
Proof.
  split.
  - intros [f [Hd Hy]]. inversion Hd; subst. eexists. split; [reflexivity | assumption].
  - intros [t [-> Ht]]. exists [Leaf t]. split; [now constructor | reflexivity].
Qed.

Lemma lang_eps w : lang Eps w <-> w = [].
Proof.
  split.
  - intros [f [Hd Hy]]. inversion Hd; subst. reflexivity.
  - intros ->. exists []. split; [constructor | reflexivity].
Qed.

Lemma lang_nt r w : lang (Nt r) w <-> lang (body r) w.
Proof.
  split.
  - intros [f [Hd Hy]]. inversion Hd; subst. eexists. split; [eassumption | symmetry; apply yields_node].
  - intros [f [Hd Hy]]. exists [Node r f]. split; [now constructor | now rewrite yields_node].
Qed.

Lemma lang_seq a b w : lang (Seq a b) w <-> exists u v, w = u ++ v /\ lang a u /\ lang b v.
Proof.
  split.
  - intros [f [Hd Hy]]. inversion Hd; subst. exists (yields f1), (yields f2).
    rewrite yields_app. split; [reflexivity|]. split; eexists; eauto.
  - intros [u [v [-> [[f1 [H1 <-]] [f2 [H2 <-]]]]]]. exists (f1 ++ f2).
    split; [now constructor | apply yields_app].
Qed.

Lemma lang_alt a b w : lang (Alt a b) w <-> lang a w \/ lang b w.
Proof.
  split.
  - intros [f [Hd Hy]]. inversion Hd; subst; [left | right]; eexists; eauto.
  - intros [[f [H1 <-]]|[f [H1 <-]]]; exists f; split; auto; [now apply D_altl | now apply D_altr].
Qed.

Lemma lang_star a w : lang (Star a) w <-> w = [] \/ exists u v, w = u ++ v /\ lang a u /\ lang (Star a) v.
Proof.
  split.
  - intros [f [Hd Hy]]. inversion Hd; subst.
    + left. reflexivity.
    + right. exists (yields f1), (yields f2). rewrite yields_app. split; [reflexivity|].
      split; eexists; eauto.
  - intros [-> | [u [v [-> [[f1 [H1 <-]] [f2 [H2 <-]]]]]]].
    + exists []. split; [constructor | reflexivity].
    + exists (f1 ++ f2). split; [now constructor | apply yields_app].
Qed.

(** ** Nullability and ranks of the grammar *)

Definition look {A : Type} (d : A) (tbl : list A) (r : rule) : A := nth (rule_ix r) tbl d.

Fixpoint iter {A : Type} (n : nat) (f : A -> A) (x : A) : A :=
  match n with O => x | S k => iter k f (f x) end.

Lemma rule_in r : In r all_rules.
Proof. destruct r; cbn; tauto. Qed.

Lemma all_rules_forall (P : rule -> bool) :
  forallb P all_rules = true -> forall r, P r = true.
Proof. intros H r. rewrite forallb_forall in H. apply H, rule_in. Qed.

Fixpoint nullable_t (tbl : list bool) (g : gexp) : bool :=
  match g with
  | Cls _ => false
  | Eps => true
  | Nt r => look false tbl r
  | Seq a b => nullable_t tbl a && nullable_t tbl b
  | Alt a b => nullable_t tbl a || nullable_t tbl b
  | Star _ => true
  end.

Definition null_table : list bool :=
  Eval vm_compute in
    iter 67 (fun t => map (fun r => nullable_t t (body r)) all_rules)
      (map (fun _ => false) all_rules).

Definition nullable (g : gexp) : bool := nullable_t null_table g.

Lemma null_table_ok r : implb (nullable (body r)) (look false null_table r) = true.
Proof. revert r. apply all_rules_forall. vm_compute. reflexivity. Qed.

Lemma nullable_complete g f : derives g f -> yields f = [] -> nullable g = true.
Proof.
  induction 1; intros Hy; unfold nullable in *; cbn [nullable_t] in *; try discriminate; auto.
  - rewrite yields_node in Hy.
    specialize (IHderives Hy). pose proof (null_table_ok r) as Hr.
    unfold nullable in Hr. rewrite IHderives in Hr. destruct (look false null_table r); auto.
  - rewrite yields_app in Hy. apply app_eq_nil in Hy as [Ha Hb].
    rewrite IHderives1, IHderives2; auto.
  - rewrite IHderives; auto.
  - rewrite IHderives; auto using orb_true_r.
Qed.

Lemma lang_nullable g : lang g [] -> nullable g = true.
Proof. intros [f [H Hy]]. eapply nullable_complete; eauto. Qed.

Fixpoint rk_t (tbl : list nat) (g : gexp) : nat :=
  match g with
  | Cls _ => 1
  | Eps => 1
  | Nt r => S (look 0 tbl r)
  | Seq a b => S (Nat.max (rk_t tbl a) (if nullable a then rk_t tbl b else 0))
  | Alt a b => S (Nat.max (rk_t tbl a) (rk_t tbl b))
  | Star a => S (rk_t tbl a)
  end.

Definition rank_table : list nat :=
  Eval vm_compute in
    iter 67 (fun t => map (fun r => rk_t t (body r)) all_rules) (map (fun _ => 0) all_rules).

Definition rk (g : gexp) : nat := rk_t rank_table g.

Definition B : nat := 100.

(** No loop over a nullable body, and every sub-expression has rank at most [B]. *)
Fixpoint wfg (g : gexp) : bool :=
  match g with
  | Cls _ | Eps => true
  | Nt r => Nat.leb (rk (Nt r)) B
  | Seq a b => wfg a && wfg b && Nat.leb (rk (Seq a b)) B
  | Alt a b => wfg a && wfg b && Nat.leb (rk (Alt a b)) B
  | Star a => wfg a && negb (nullable a) && Nat.leb (rk (Star a)) B
  end.

Lemma grammar_ok r : wfg (body r) && Nat.leb (rk (body r)) (look 0 rank_table r) = true.
Proof. revert r. apply all_rules_forall. vm_compute. reflexivity. Qed.

Lemma wfg_body r : wfg (body r) = true.
Proof. pose proof (grammar_ok r) as H. apply andb_true_iff in H. tauto. Qed.

Lemma wfg_nt r : wfg (Nt r) = true.
Proof. revert r. apply all_rules_forall. vm_compute. reflexivity. Qed.

Lemma rk_body r : rk (body r) < rk (Nt r).
Proof.
  pose proof (grammar_ok r) as H. apply andb_true_iff in H. destruct H as [_ H].
  apply Nat.leb_le in H. change (rk (Nt r)) with (S (look 0 rank_table r)). lia.
Qed.

Lemma wfg_rk g : wfg g = true -> rk g <= B.
Proof.
  destruct g; cbn [wfg]; rewrite ?andb_true_iff, ?Nat.leb_le; try tauto; intros; unfold rk, B; cbn; lia.
Qed.

Lemma rk_pos g : 1 <= rk g.
Proof. destruct g; unfold rk; cbn; lia. Qed.

(** ** Suffix sets *)

Definition suffix_of (W u : word) : Prop := exists p, W = p ++ u.
Definition sfx (W : word) (s : sset) : Prop := forall u, In u s -> suffix_of W u.

Lemma suffix_len_eq W u v : suffix_of W u -> suffix_of W v -> length u = length v -> u = v.
Proof.
  intros [p ->] [q Hq] Hl. revert q Hq.
  induction p as [|x p IH]; intros q Hq; destruct q as [|y q]; cbn in Hq.
  - exact Hq.
  - exfalso. apply (f_equal (@length _)) in Hq. cbn in Hq. rewrite app_length in Hq. lia.
  - exfalso. apply (f_equal (@length _)) in Hq. cbn in Hq. rewrite app_length in Hq. lia.
  - injection Hq as _ Hq. apply (IH q Hq).
Qed.

Lemma merge_In_inv x y v : In v (merge x y) -> In v x \/ In v y.
Proof.
  revert y. induction x as [|a x IHx]; intros y; [cbn; destruct y; auto|].
  induction y as [|b y IHy]; [cbn; auto|]. cbn [merge].
  destruct (Nat.compare (length a) (length b)); cbn [In]; intros [H|H]; auto.
  - apply IHx in H. cbn. tauto.
  - apply IHy in H. cbn in H. tauto.
  - apply IHx in H. cbn in H. tauto.
Qed.

Lemma merge_In W x y v : sfx W x -> sfx W y -> In v x \/ In v y -> In v (merge x y).
Proof.
  revert y. induction x as [|a x IHx]; intros y Hx; [cbn; destruct y; cbn; tauto|].
  assert (Hx' : sfx W x) by (intros u Hu; apply Hx; now right).
  induction y as [|b y IHy]; [cbn; tauto|]. intros Hy. cbn [merge].
  assert (Hy' : sfx W y) by (intros u Hu; apply Hy; now right).
  destruct (Nat.compare (length a) (length b)) eqn:E; intros H.
  - apply Nat.compare_eq_iff in E.
    assert (a = b) by (eapply suffix_len_eq; [apply Hx; now left | apply Hy; now left | exact E]).
    subst b. destruct H as [[H|H]|[H|H]]; cbn; auto; right; apply IHx; auto.
  - destruct H as [H|[H|H]]; cbn; auto; right; apply IHy; auto.
  - destruct H as [[H|H]|H]; cbn; auto; right; apply IHx; auto.
Qed.

Lemma step_cls_In ts s v : In v (step_cls ts s) <-> exists t, In (t :: v) s /\ In (tt t) ts.
Proof.
  unfold step_cls. rewrite in_flat_map. split.
  - intros [w [Hw Hv]]. destruct w as [|t w]; [destruct Hv|].
    destruct (memb (tt t) ts) eqn:E; [|destruct Hv]. destruct Hv as [->|[]].
    exists t. split; [exact Hw | now apply memb_In].
  - intros [t [Hs Ht]]. exists (t :: v). split; [exact Hs|].
    apply memb_In in Ht. rewrite Ht. now left.
Qed.

Lemma ends_sound n g s v : In v (ends n g s) -> exists u, In (u ++ v) s /\ lang g u.
Proof.
  revert g s v. induction n as [|n IH]; intros g s v H; [destruct H|].
  cbn [ends] in H. destruct s as [|s0 s']; [destruct H|]. set (s := s0 :: s') in *.
  destruct g as [ts| |r|a b|a b|a].
  - apply step_cls_In in H as [t [Hs Ht]]. exists [t]. split; [exact Hs|].
    apply lang_cls. eauto.
  - exists []. split; [exact H | now apply lang_eps].
  - apply IH in H as [u [Hu Hl]]. exists u. split; [exact Hu | now apply lang_nt].
  - apply IH in H as [u2 [H2 L2]]. apply IH in H2 as [u1 [H1 L1]].
    exists (u1 ++ u2). rewrite <- app_assoc. split; [exact H1|]. apply lang_seq. eauto 10.
  - apply merge_In_inv in H as [H|H]; apply IH in H as [u [Hu Hl]]; exists u;
      (split; [exact Hu | apply lang_alt; auto]).
  - apply merge_In_inv in H as [H|H].
    + exists []. split; [exact H | apply lang_star; now left].
    + apply IH in H as [u2 [H2 L2]]. apply IH in H2 as [u1 [H1 L1]].
      exists (u1 ++ u2). rewrite <- app_assoc. split; [exact H1|]. apply lang_star. right. eauto 10.
Qed.

Lemma ends_sfx W n g s : sfx W s -> sfx W (ends n g s).
Proof.
  intros Hs v Hv. apply ends_sound in Hv as [u [Hu _]]. apply Hs in Hu as [p ->].
  exists (p ++ u). now rewrite app_assoc.
Qed.

Definition bounded (m : nat) (s : sset) : Prop := forall u, In u s -> length u <= m.

Lemma ends_complete W n : forall g s m u v,
  wfg g = true -> sfx W s -> bounded m s -> m * B + rk g <= n ->
  In (u ++ v) s -> lang g u -> In v (ends n g s).
Proof.
  induction n as [|n IH]; intros g s m u v Hg Hs Hm Hn Hi Hl.
  - pose proof (rk_pos g). lia.
  - cbn [ends]. destruct s as [|s0 s']; [destruct Hi|]. set (s := s0 :: s') in *.
    assert (Hb : forall a, nullable a = false -> bounded (m - 1) (ends n a s)).
    { intros a Ha v' Hv'. apply ends_sound in Hv' as [u' [Hu' Hl']].
      destruct u' as [|t u']; [apply lang_nullable in Hl'; congruence|].
      apply Hm in Hu'. cbn in Hu'. rewrite app_length in Hu'. lia. }
    assert (Hb' : forall a, bounded m (ends n a s)).
    { intros a v' Hv'. apply ends_sound in Hv' as [u' [Hu' Hl']].
      apply Hm in Hu'. rewrite app_length in Hu'. lia. }
    destruct g as [ts| |r|a b|a b|a].
    + apply lang_cls in Hl as [t [-> Ht]]. apply step_cls_In. exists t. split; assumption.
    + apply lang_eps in Hl. now subst u.
    + apply lang_nt in Hl. apply (IH _ s m u v); auto using wfg_body.
      pose proof (rk_body r). lia.
    + apply lang_seq in Hl as [u1 [u2 [-> [L1 L2]]]]. rewrite <- app_assoc in Hi.
      cbn [wfg] in Hg. rewrite !andb_true_iff in Hg. destruct Hg as [[Ha Hgb] Hr].
      assert (H1 : In (u2 ++ v) (ends n a s)).
      { apply (IH a s m u1 (u2 ++ v)); auto. unfold rk in *. cbn in Hn. lia. }
      destruct (nullable a) eqn:Na.
      * apply (IH b _ m u2 v); auto using ends_sfx.
        unfold rk in *. cbn [rk_t] in Hn. rewrite Na in Hn. lia.
      * apply (IH b _ (m - 1) u2 v); auto using ends_sfx.
        apply wfg_rk in Hgb.
        destruct m as [|m].
        { exfalso. specialize (Hm _ Hi). rewrite app_length in Hm.
          destruct u1; [apply lang_nullable in L1; congruence | cbn in Hm; lia]. }
        replace (S m - 1) with m by lia. unfold rk, B in *. cbn [rk_t] in Hn. lia.
    + cbn [wfg] in Hg. rewrite !andb_true_iff in Hg. destruct Hg as [[Ha Hgb] Hr].
      apply merge_In with (W := W); auto using ends_sfx.
      apply lang_alt in Hl as [L|L]; [left|right]; apply (IH _ s m u v); auto;
        unfold rk in *; cbn [rk_t] in Hn; lia.
    + cbn [wfg] in Hg. rewrite !andb_true_iff in Hg. destruct Hg as [[Ha Hna] Hr].
      apply merge_In with (W := W); auto using ends_sfx.
      apply lang_star in Hl as [->|[u1 [u2 [-> [L1 L2]]]]]; [now left|]. right.
      rewrite <- app_assoc in Hi. apply negb_true_iff in Hna.
      assert (H1 : In (u2 ++ v) (ends n a s)).
      { apply (IH a s m u1 (u2 ++ v)); auto. unfold rk in *. cbn in Hn. lia. }
      destruct m as [|m].
      { exfalso. specialize (Hm _ Hi). rewrite app_length in Hm.
        destruct u1; [apply lang_nullable in L1; congruence | cbn in Hm; lia]. }
      specialize (Hb a Hna). replace (S m - 1) with m in Hb by lia.
      apply (IH (Star a) _ m u2 v); auto using ends_sfx.
      * cbn [wfg]. rewrite Ha, Hna, Hr. reflexivity.
      * apply Nat.leb_le in Hr. unfold B in *. lia.
Qed.

(** ** Acceptance by a stack of expressions *)

Fixpoint lang_stack (k : list gexp) : word -> Prop :=
  match k with
  | [] => eq []
  | g :: k' => viable g (lang_stack k')
  end.

Lemma accepts_set_sound n k s : accepts_set n k s = true -> exists w, In w s /\ lang_stack k w.
Proof.
  revert s. induction k as [|g k IH]; intros s H; cbn in H.
  - apply existsb_exists in H as [w [Hw He]]. destruct w; [|discriminate].
    exists []. split; [exact Hw | reflexivity].
  - apply IH in H as [v [Hv Hk]]. apply ends_sound in Hv as [u [Hu Hl]].
    exists (u ++ v). split; [exact Hu|]. exists u, v. auto.
Qed.

Lemma accepts_set_complete W n k : forall s m w,
  forallb wfg k = true -> sfx W s -> bounded m s -> (S m) * B <= n ->
  In w s -> lang_stack k w -> accepts_set n k s = true.
Proof.
  induction k as [|g k IH]; intros s m w Hk Hs Hm Hn Hi Hl; cbn in *.
  - subst w. apply existsb_exists. exists []. auto.
  - apply andb_true_iff in Hk as [Hg Hk]. destruct Hl as [u [v [-> [Lu Lv]]]].
    apply (IH (ends n g s) m v); auto using ends_sfx.
    + intros v' Hv'. apply ends_sound in Hv' as [u' [Hu' _]]. apply Hm in Hu'.
      rewrite app_length in Hu'. lia.
    + apply (ends_complete W) with (m := m) (u := u); auto. apply wfg_rk in Hg. unfold B in *. lia.
Qed.

Lemma accepts_spec n k w :
  forallb wfg k = true -> (S (length w)) * B <= n ->
  (accepts n k w = true <-> lang_stack k w).
Proof.
  intros Hk Hn. unfold accepts. split.
  - intros H. apply accepts_set_sound in H as [w' [[->|[]] H]]. exact H.
  - intros H. apply accepts_set_complete with (W := w) (m := length w) (w := w); auto.
    + intros u [<-|[]]. exists []. reflexivity.
    + intros u [<-|[]]. lia.
    + now left.
Qed.

Lemma accepts_false n k w :
  forallb wfg k = true -> (S (length w)) * B <= n ->
  accepts n k w = false -> ~ lang_stack k w.
Proof.
  intros Hk Hn Ha Hl. apply (accepts_spec n) in Hl; auto. congruence.
Qed.

(** ** Facts about [sel] *)

Lemma sel_sound g V w f w' : sel g V w f w' -> derives g f /\ w = yields f ++ w'.
Proof.
  induction 1.
  - split; [now constructor | reflexivity].
  - split; [constructor | reflexivity].
  - destruct IHsel as [Hd ->]. split; [now constructor | now rewrite yields_node].
  - destruct IHsel1 as [Hd1 ->]. destruct IHsel2 as [Hd2 ->].
    split; [now constructor | now rewrite yields_app, app_assoc].
  - destruct IHsel as [Hd ->]. split; [now apply D_altl | reflexivity].
  - destruct IHsel as [Hd ->]. split; [now apply D_altr | reflexivity].
  - destruct IHsel1 as [Hd1 ->]. destruct IHsel2 as [Hd2 ->].
    split; [now constructor | now rewrite yields_app, app_assoc].
  - split; [constructor | reflexivity].
Qed.

Lemma sel_det g V w f1 w1 : sel g V w f1 w1 -> forall f2 w2, sel g V w f2 w2 -> f1 = f2 /\ w1 = w2.
Proof.
  induction 1; intros g2 w2' H2; inversion H2; subst; try tauto; auto.
  - match goal with H : sel (body r) _ _ _ _ |- _ => apply IHsel in H as [-> ->] end. auto.
  - match goal with H : sel a _ w _ _ |- _ => apply IHsel1 in H as [-> ->] end.
    match goal with H : sel b _ _ _ _ |- _ => apply IHsel2 in H as [-> ->] end. auto.
  - match goal with H : sel a (viable (Star a) V) w _ _ |- _ => apply IHsel1 in H as [-> ->] end.
    match goal with H : sel (Star a) V _ _ _ |- _ => apply IHsel2 in H as [-> ->] end. auto.
Qed.

Lemma sel_viable g V w f w' : sel g V w f w' -> V w' -> viable g V w.
Proof.
  intros H Hv. apply sel_sound in H as [Hd ->]. exists (yields f), w'.
  split; [reflexivity|]. split; [|exact Hv]. exists f. auto.
Qed.

(** Acceptability is kept along the selected reading. *)
Lemma sel_keeps g V w f w' : sel g V w f w' -> viable g V w -> V w'.
Proof.
  induction 1; intros Hv.
  - destruct Hv as [u [v [E [Hl Hv]]]]. apply lang_cls in Hl as [t' [-> Ht]].
    injection E as _ ->. exact Hv.
  - destruct Hv as [u [v [E [Hl Hv]]]]. apply lang_eps in Hl. now subst.
  - apply IHsel. destruct Hv as [u [v [E [Hl Hv]]]]. apply lang_nt in Hl. exists u, v. auto.
  - apply IHsel2, IHsel1. destruct Hv as [u [v [E [Hl Hv]]]].
    apply lang_seq in Hl as [u1 [u2 [-> [L1 L2]]]]. exists u1, (u2 ++ v). subst w.
    rewrite app_assoc. split; [reflexivity|]. split; [exact L1|]. exists u2, v. auto.
  - auto.
  - apply IHsel. destruct Hv as [u [v [E [Hl Hv]]]].
    apply lang_alt in Hl as [L|L]; [|exists u, v; auto].
    exfalso. apply H. exists u, v. auto.
  - auto.
  - destruct Hv as [u [v [E [Hl Hv]]]].
    apply lang_star in Hl as [->|[u1 [u2 [-> [L1 L2]]]]]; [now subst|].
    exfalso. apply H. exists u1, (u2 ++ v). subst w. rewrite app_assoc.
    split; [reflexivity|]. split; [exact L1|]. exists u2, v. auto.
Qed.

(** ** The descent follows [sel] *)

Lemma descend_spec n : forall g k w,
  wfg g = true -> forallb wfg k = true -> (S (length w)) * B + rk g <= n ->
  viable g (lang_stack k) w ->
  exists f w', descend n g k w = Some (f, w') /\ sel g (lang_stack k) w f w'.
Proof.
  induction n as [|n IH]; intros g k w Hg Hk Hn Hv.
  - pose proof (rk_pos g). lia.
  - cbn [descend]. destruct g as [ts| |r|a b|a b|a].
    + destruct Hv as [u [v [-> [Hl Hv]]]]. apply lang_cls in Hl as [t [-> Ht]]. cbn [app].
      pose proof Ht as Ht'. apply memb_In in Ht'. rewrite Ht'.
      exists [Leaf t], v. split; [reflexivity | now constructor].
    + exists [], w. split; [reflexivity | constructor].
    + assert (Hv' : viable (body r) (lang_stack k) w).
      { destruct Hv as [u [v [-> [Hl Hv]]]]. apply lang_nt in Hl. exists u, v. auto. }
      pose proof (rk_body r).
      destruct (IH (body r) k w) as [f [w' [E S]]]; auto using wfg_body; try lia.
      rewrite E. exists [Node r f], w'. split; [reflexivity | now constructor].
    + pose proof Hg as Hg0. cbn [wfg] in Hg. rewrite !andb_true_iff in Hg.
      destruct Hg as [[Ha Hb] Hr].
      assert (Hv' : viable a (lang_stack (b :: k)) w).
      { destruct Hv as [u [v [-> [Hl Hv]]]]. apply lang_seq in Hl as [u1 [u2 [-> [L1 L2]]]].
        exists u1, (u2 ++ v). rewrite app_assoc. split; [reflexivity|]. split; [exact L1|].
        exists u2, v. auto. }
      destruct (IH a (b :: k) w) as [f1 [w1 [E1 S1]]]; auto.
      { cbn [forallb]. now rewrite Hb. }
      { unfold rk in *. cbn [rk_t] in Hn. lia. }
      rewrite E1. pose proof (sel_keeps _ _ _ _ _ S1 Hv') as Hv1. cbn [lang_stack] in Hv1, S1.
      pose proof (sel_sound _ _ _ _ _ S1) as [D1 Ew].
      destruct (IH b k w1) as [f2 [w2 [E2 S2]]]; auto.
      { apply (f_equal (@length _)) in Ew. rewrite app_length in Ew.
        destruct (nullable a) eqn:Na.
        - unfold rk in *. cbn [rk_t] in Hn. rewrite Na in Hn.
          assert (S (length w1) * B <= S (length w) * B) by (apply Nat.mul_le_mono_r; lia). lia.
        - assert (length (yields f1) <> 0).
          { intros H0. apply length_zero_iff_nil in H0.
            apply nullable_complete in D1; auto. congruence. }
          assert (S (S (length w1)) * B <= S (length w) * B) by (apply Nat.mul_le_mono_r; lia).
          apply wfg_rk in Hb. cbn [Nat.mul] in H0.
          unfold rk in Hn; cbn [rk_t] in Hn. unfold B in *. lia. }
      rewrite E2. exists (f1 ++ f2), w2. split; [reflexivity|].
      now apply S_seq with (w1 := w1).
    + cbn [wfg] in Hg. rewrite !andb_true_iff in Hg. destruct Hg as [[Ha Hb] Hr].
      assert (Hn1 : S (length w) * B <= n) by (unfold rk in Hn; cbn [rk_t] in Hn; lia).
      assert (Hka : forallb wfg (a :: k) = true) by (cbn [forallb]; now rewrite Ha).
      destruct (accepts n (a :: k) w) eqn:E.
      * apply accepts_spec in E; auto. cbn [lang_stack] in E.
        destruct (IH a k w) as [f [w' [E' S']]]; auto.
        { unfold rk in *. cbn [rk_t] in Hn. lia. }
        exists f, w'. split; [exact E' | now apply S_altl].
      * apply accepts_false in E; auto. cbn [lang_stack] in E.
        destruct (IH b k w) as [f [w' [E' S']]]; auto.
        { unfold rk in *. cbn [rk_t] in Hn. lia. }
        { destruct Hv as [u [v [-> [Hl Hv]]]]. apply lang_alt in Hl as [L|L].
          - exfalso. apply E. exists u, v. auto.
          - exists u, v. auto. }
        exists f, w'. split; [exact E' | now apply S_altr].
    + pose proof Hg as Hg0. cbn [wfg] in Hg. rewrite !andb_true_iff in Hg.
      destruct Hg as [[Ha Hna] Hr]. apply negb_true_iff in Hna.
      assert (Hn1 : S (length w) * B <= n) by (unfold rk in Hn; cbn [rk_t] in Hn; lia).
      assert (Hka : forallb wfg (a :: Star a :: k) = true).
      { cbn [forallb]. now rewrite Ha, Hg0. }
      destruct (accepts n (a :: Star a :: k) w) eqn:E.
      * apply accepts_spec in E; auto. cbn [lang_stack] in E.
        destruct (IH a (Star a :: k) w) as [f1 [w1 [E1 S1]]]; auto.
        { cbn [forallb]. now rewrite Hg0. }
        { unfold rk in *. cbn [rk_t] in Hn. lia. }
        rewrite E1. pose proof (sel_keeps _ _ _ _ _ S1 E) as Hv1. cbn [lang_stack] in Hv1, S1.
        pose proof (sel_sound _ _ _ _ _ S1) as [D1 Ew].
        destruct (IH (Star a) k w1) as [f2 [w2 [E2 S2]]]; auto.
        { apply (f_equal (@length _)) in Ew. rewrite app_length in Ew.
          assert (length (yields f1) <> 0).
          { intros H0. apply length_zero_iff_nil in H0.
            apply nullable_complete in D1; auto. congruence. }
          assert (S (S (length w1)) * B <= S (length w) * B) by (apply Nat.mul_le_mono_r; lia).
          apply Nat.leb_le in Hr. cbn [Nat.mul] in H0. unfold B in *. lia. }
        rewrite E2. exists (f1 ++ f2), w2. split; [reflexivity|].
        now apply S_star1 with (w1 := w1).
      * apply accepts_false in E; auto. cbn [lang_stack] in E.
        exists [], w. split; [reflexivity | now apply S_star0].
Qed.

Lemma descend_sound n : forall g k w f w',
  descend n g k w = Some (f, w') -> derives g f /\ w = yields f ++ w'.
Proof.
  induction n as [|n IH]; intros g k w f w' H; [discriminate|].
  cbn [descend] in H. destruct g as [ts| |r|a b|a b|a].
  - destruct w as [|t w0]; [discriminate|]. destruct (memb (tt t) ts) eqn:E; [|discriminate].
    injection H as <- <-. split; [constructor; now apply memb_In | reflexivity].
  - injection H as <- <-. split; [constructor | reflexivity].
  - destruct (descend n (body r) k w) as [[f0 w0]|] eqn:E; [|discriminate].
    injection H as <- <-. apply IH in E as [D ->].
    split; [now constructor | now rewrite yields_node].
  - destruct (descend n a (b :: k) w) as [[f1 w1]|] eqn:E1; [|discriminate].
    destruct (descend n b k w1) as [[f2 w2]|] eqn:E2; [|discriminate].
    injection H as <- <-. apply IH in E1 as [D1 ->]. apply IH in E2 as [D2 ->].
    split; [now constructor | now rewrite yields_app, app_assoc].
  - destruct (accepts n (a :: k) w); apply IH in H as [D ->].
    + split; [now apply D_altl | reflexivity].
    + split; [now apply D_altr | reflexivity].
  - destruct (accepts n (a :: Star a :: k) w).
    + destruct (descend n a (Star a :: k) w) as [[f1 w1]|] eqn:E1; [|discriminate].
      destruct (descend n (Star a) k w1) as [[f2 w2]|] eqn:E2; [|discriminate].
      injection H as <- <-. apply IH in E1 as [D1 ->]. apply IH in E2 as [D2 ->].
      split; [now constructor | now rewrite yields_app, app_assoc].
    + injection H as <- <-. split; [constructor | reflexivity].
Qed.

Lemma fuel_enough r w : S (length w) * B + rk (Nt r) <= fuel w.
Proof.
  pose proof (wfg_rk _ (wfg_nt r)) as H. unfold fuel, fuel_per_token, B in *. lia.
Qed.

(** ** The results used elsewhere *)

Theorem parse_complete r w : lang (Nt r) w -> exists t, parse r w = Some t /\ selected r w t.
Proof.
  intros Hl.
  assert (Hv : viable (Nt r) (lang_stack []) w).
  { exists w, []. rewrite app_nil_r. split; [reflexivity|]. split; [exact Hl | reflexivity]. }
  destruct (descend_spec (fuel w) (Nt r) [] w) as [f [w' [E S]]]; auto using wfg_nt, fuel_enough.
  pose proof (sel_keeps _ _ _ _ _ S Hv) as He. cbn in He. subst w'.
  clear Hv Hl. unfold parse. rewrite E. inversion S; subst. eexists. split; [reflexivity|]. exact S.
Qed.

Theorem selected_lang r w t : selected r w t -> lang (Nt r) w.
Proof.
  intros H. apply sel_sound in H as [D ->]. rewrite app_nil_r. exists [t]. auto.
Qed.

Lemma parse_lang r w t : parse r w = Some t -> lang (Nt r) w.
Proof.
  unfold parse. generalize (fuel w) as n. intros n H.
  destruct (descend n (Nt r) [] w) as [[f w']|] eqn:E; [|discriminate].
  destruct f as [|t0 [|? ?]]; try discriminate. destruct w'; [|discriminate].
  apply descend_sound in E as [D ->]. rewrite app_nil_r. eexists. eauto.
Qed.

Theorem parse_selected r w t : parse r w = Some t <-> selected r w t.
Proof.
  split.
  - intros H.
    pose proof (parse_lang r w t H) as Hl.
    apply parse_complete in Hl as [t' [E S]]. rewrite E in H. injection H as <-. exact S.
  - intros H. pose proof (selected_lang _ _ _ H) as Hl.
    apply parse_complete in Hl as [t' [E S]]. rewrite E. f_equal.
    destruct (sel_det _ _ _ _ _ S _ _ H) as [Ht _]. injection Ht as ->. reflexivity.
Qed.

Theorem parse_none r w : parse r w = None <-> ~ lang (Nt r) w.
Proof.
  split.
  - intros H Hl. apply parse_complete in Hl as [t [E _]]. congruence.
  - intros H. destruct (parse r w) as [t|] eqn:E; [|reflexivity].
    exfalso. apply H. apply parse_selected in E. eapply selected_lang; eauto.
Qed.

(** Every tree the parser returns is a well-formed parse of the whole input. *)
Theorem parse_derives r w t : parse r w = Some t -> derives (Nt r) [t] /\ yield t = w.
Proof.
  intros H. apply parse_selected in H. apply sel_sound in H as [D E]. split; [exact D|].
  rewrite app_nil_r in E. unfold yields in E. cbn in E. now rewrite app_nil_r in E.
Qed.

(** Totality of [sel] for decidable continuations. *)
Definition dec (V : word -> Prop) : Prop := forall w, V w \/ ~ V w.

Lemma lang_dec g w : wfg g = true -> lang g w \/ ~ lang g w.
Proof.
  intros Hg.
  assert (Hs : forall b : bool, accepts (S (length w) * B) [g] w = b -> lang g w \/ ~ lang g w).
  { assert (Heq : lang_stack [g] w <-> lang g w).
    { cbn. split.
      - intros [u [v [-> [Hl <-]]]]. now rewrite app_nil_r.
      - intros H. exists w, []. now rewrite app_nil_r. }
    intros [|] E.
    - left. apply Heq. apply accepts_spec in E; cbn [forallb]; rewrite ?Hg; auto.
    - right. rewrite <- Heq. apply accepts_false in E; cbn [forallb]; rewrite ?Hg; auto. }
  eapply Hs. reflexivity.
Qed.

Lemma viable_dec g V : wfg g = true -> dec V -> dec (viable g V).
Proof.
  intros Hg HV w.
  assert (H : forall p q, w = p ++ q ->
     (exists u v, q = u ++ v /\ lang g (p ++ u) /\ V v) \/
     ~ (exists u v, q = u ++ v /\ lang g (p ++ u) /\ V v)).
  { intros p q. revert p. induction q as [|x q IH]; intros p E.
    - assert (H0 : (lang g p /\ V []) \/ ~ (lang g p /\ V [])).
      { destruct (lang_dec g p Hg); destruct (HV []); tauto. }
      destruct H0 as [[Hl Hv]|H0].
      + left. exists [], []. split; [reflexivity|]. rewrite app_nil_r. auto.
      + right. intros [u [v [E' [Hl Hv]]]]. symmetry in E'. apply app_eq_nil in E' as [-> ->].
        rewrite app_nil_r in Hl. auto.
    - assert (H0 : (lang g p /\ V (x :: q)) \/ ~ (lang g p /\ V (x :: q))).
      { destruct (lang_dec g p Hg); destruct (HV (x :: q)); tauto. }
      destruct H0 as [[Hl Hv]|H0].
      + left. exists [], (x :: q). split; [reflexivity|]. rewrite app_nil_r. auto.
      + destruct (IH (p ++ [x])) as [[u [v [-> [Hl Hv]]]]|Hn].
        { rewrite <- app_assoc. exact E. }
        * left. exists (x :: u), v. rewrite <- app_assoc in Hl. auto.
        * right. intros [u [v [E' [Hl Hv]]]]. destruct u as [|y u].
          { apply H0. cbn in E'. subst v. rewrite app_nil_r in Hl. auto. }
          injection E' as <- ->. apply Hn. exists u, v. rewrite <- app_assoc. auto. }
  exact (H [] w eq_refl).
Qed.

Lemma dec_nil : dec (eq []).
Proof. intros [|x w]; [left; reflexivity | right; discriminate]. Qed.

Lemma sel_total n : forall g V w,
  wfg g = true -> dec V -> (S (length w)) * B + rk g <= n -> viable g V w ->
  exists f w', sel g V w f w'.
Proof.
  induction n as [|n IH]; intros g V w Hg HV Hn Hv.
  - pose proof (rk_pos g). lia.
  - destruct g as [ts| |r|a b|a b|a].
    + destruct Hv as [u [v [-> [Hl Hv]]]]. apply lang_cls in Hl as [t [-> Ht]].
      exists [Leaf t], v. now constructor.
    + exists [], w. constructor.
    + assert (Hv' : viable (body r) V w).
      { destruct Hv as [u [v [-> [Hl Hv]]]]. apply lang_nt in Hl. exists u, v. auto. }
      pose proof (rk_body r).
      destruct (IH (body r) V w) as [f [w' S]]; auto using wfg_body; try lia.
      exists [Node r f], w'. now constructor.
    + cbn [wfg] in Hg. rewrite !andb_true_iff in Hg. destruct Hg as [[Ha Hb] Hr].
      assert (Hv' : viable a (viable b V) w).
      { destruct Hv as [u [v [-> [Hl Hv]]]]. apply lang_seq in Hl as [u1 [u2 [-> [L1 L2]]]].
        exists u1, (u2 ++ v). rewrite app_assoc. split; [reflexivity|]. split; [exact L1|].
        exists u2, v. auto. }
      destruct (IH a (viable b V) w) as [f1 [w1 S1]]; auto using viable_dec.
      { unfold rk in *. cbn [rk_t] in Hn. lia. }
      pose proof (sel_keeps _ _ _ _ _ S1 Hv') as Hv1.
      pose proof (sel_sound _ _ _ _ _ S1) as [D1 Ew].
      destruct (IH b V w1) as [f2 [w2 S2]]; auto.
      { apply (f_equal (@length _)) in Ew. rewrite app_length in Ew.
        destruct (nullable a) eqn:Na.
        - unfold rk in *. cbn [rk_t] in Hn. rewrite Na in Hn.
          assert (S (length w1) * B <= S (length w) * B) by (apply Nat.mul_le_mono_r; lia). lia.
        - assert (length (yields f1) <> 0).
          { intros H0. apply length_zero_iff_nil in H0.
            apply nullable_complete in D1; auto. congruence. }
          assert (S (S (length w1)) * B <= S (length w) * B) by (apply Nat.mul_le_mono_r; lia).
          apply wfg_rk in Hb. cbn [Nat.mul] in H0.
          unfold rk in Hn; cbn [rk_t] in Hn. unfold B in *. lia. }
      exists (f1 ++ f2), w2. now apply S_seq with (w1 := w1).
    + cbn [wfg] in Hg. rewrite !andb_true_iff in Hg. destruct Hg as [[Ha Hb] Hr].
      destruct (viable_dec a V Ha HV w) as [E|E].
      * destruct (IH a V w) as [f [w' S']]; auto.
        { unfold rk in *. cbn [rk_t] in Hn. lia. }
        exists f, w'. now apply S_altl.
      * destruct (IH b V w) as [f [w' S']]; auto.
        { unfold rk in *. cbn [rk_t] in Hn. lia. }
        { destruct Hv as [u [v [-> [Hl Hv]]]]. apply lang_alt in Hl as [L|L].
          - exfalso. apply E. exists u, v. auto.
          - exists u, v. auto. }
        exists f, w'. now apply S_altr.
    + pose proof Hg as Hg0. cbn [wfg] in Hg. rewrite !andb_true_iff in Hg.
      destruct Hg as [[Ha Hna] Hr]. apply negb_true_iff in Hna.
      destruct (viable_dec a (viable (Star a) V) Ha (viable_dec _ _ Hg0 HV) w) as [E|E].
      * destruct (IH a (viable (Star a) V) w) as [f1 [w1 S1]]; auto using viable_dec.
        { unfold rk in *. cbn [rk_t] in Hn. lia. }
        pose proof (sel_keeps _ _ _ _ _ S1 E) as Hv1.
        pose proof (sel_sound _ _ _ _ _ S1) as [D1 Ew].
        destruct (IH (Star a) V w1) as [f2 [w2 S2]]; auto.
        { apply (f_equal (@length _)) in Ew. rewrite app_length in Ew.
          assert (length (yields f1) <> 0).
          { intros H0. apply length_zero_iff_nil in H0.
            apply nullable_complete in D1; auto. congruence. }
          assert (S (S (length w1)) * B <= S (length w) * B) by (apply Nat.mul_le_mono_r; lia).
          apply Nat.leb_le in Hr. cbn [Nat.mul] in H0. unfold B in *. lia. }
        exists (f1 ++ f2), w2. now apply S_star1 with (w1 := w1).
      * exists [], w. now apply S_star0.
Qed.

Lemma sel_exists g V w :
  wfg g = true -> dec V -> viable g V w -> exists f w', sel g V w f w' /\ V w'.
Proof.
  intros Hg HV Hv. destruct (sel_total _ g V w Hg HV (le_n _) Hv) as [f [w' S]].
  exists f, w'. split; [exact S | eapply sel_keeps; eauto].
Qed.
