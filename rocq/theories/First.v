(** Which token types can start, end and occur in a sentence: computed over-approximations. *)
From Coq Require Import List NArith Bool Arith Lia.
From Verif Require Import Lexer Grammar Parser Spec ParserFacts Static Cfws.
Import ListNotations.

Definition union (a b : list ttype) : list ttype := a ++ filter (fun t => negb (memb t a)) b.

Lemma union_In a b t : In t (union a b) <-> In t a \/ In t b.
Proof.
  unfold union. rewrite in_app_iff, filter_In, negb_true_iff. split; [tauto|].
  intros [H|H]; [now left|]. destruct (memb t a) eqn:E; [left; now apply memb_In | right; auto].
Qed.

(** ** First tokens *)
Fixpoint first_t (tbl : list (list ttype)) (g : gexp) : list ttype :=
  match g with
  | Cls ts => ts
  | Eps => []
  | Nt r => look [] tbl r
  | Seq a b => if nullable a then union (first_t tbl a) (first_t tbl b) else first_t tbl a
  | Alt a b => union (first_t tbl a) (first_t tbl b)
  | Star a => first_t tbl a
  end.

Definition first_table : list (list ttype) := Eval vm_compute in
  iter 30 (fun t => map (fun r => first_t t (body r)) all_rules) (map (fun _ => []) all_rules).

Definition first (g : gexp) : list ttype := first_t first_table g.

Lemma first_table_ok r : subset (first (body r)) (look [] first_table r) = true.
Proof. revert r. apply (all_rules_forall (fun r => subset (first (body r)) (look [] first_table r))). vm_compute. reflexivity. Qed.

Lemma first_derives g f : derives g f -> forall t w, yields f = t :: w -> In (tt t) (first g).
Proof.
  induction 1 as [ts t H| |r f H IH|a b f1 f2 H1 IH1 H2 IH2|a b f H IH|a b f H IH|a|a f1 f2 H1 IH1 H2 IH2];
    intros t0 w E; unfold first in *; cbn [first_t] in *.
  - injection E as <- _. exact H.
  - discriminate.
  - rewrite yields_node in E. apply IH in E. eapply subset_In; [apply first_table_ok | exact E].
  - rewrite yields_app in E. destruct (yields f1) as [|x u] eqn:E1.
    + rewrite (nullable_complete _ _ H1 E1). apply union_In. right. eapply IH2. exact E.
    + cbn in E. injection E as <- _. specialize (IH1 _ _ eq_refl).
      destruct (nullable a); [apply union_In; now left | exact IH1].
  - apply union_In. left. eauto.
  - apply union_In. right. eauto.
  - discriminate.
  - rewrite yields_app in E. destruct (yields f1) as [|x u] eqn:E1.
    + eapply IH2. exact E.
    + cbn in E. injection E as <- _. eapply IH1. reflexivity.
Qed.

Lemma first_lang g t w : lang g (t :: w) -> In (tt t) (first g).
Proof. intros [f [D Y]]. eapply first_derives; eauto. Qed.

Lemma not_first g t w : memb (tt t) (first g) = false -> ~ lang g (t :: w).
Proof. intros H L. apply first_lang in L. apply memb_In in L. congruence. Qed.

(** ** Last tokens *)
Fixpoint last_t (tbl : list (list ttype)) (g : gexp) : list ttype :=
  match g with
  | Cls ts => ts
  | Eps => []
  | Nt r => look [] tbl r
  | Seq a b => if nullable b then union (last_t tbl a) (last_t tbl b) else last_t tbl b
  | Alt a b => union (last_t tbl a) (last_t tbl b)
  | Star a => last_t tbl a
  end.

Definition last_table : list (list ttype) := Eval vm_compute in
  iter 30 (fun t => map (fun r => last_t t (body r)) all_rules) (map (fun _ => []) all_rules).

Definition lastT (g : gexp) : list ttype := last_t last_table g.

Lemma last_table_ok r : subset (lastT (body r)) (look [] last_table r) = true.
Proof. revert r. apply (all_rules_forall (fun r => subset (lastT (body r)) (look [] last_table r))). vm_compute. reflexivity. Qed.

Lemma app_snoc_inv {A} (u v w : list A) t : u ++ v = w ++ [t] ->
  (v = [] /\ u = w ++ [t]) \/ exists v', v = v' ++ [t].
Proof.
  destruct v as [|y v _] using rev_ind; intros E.
  - left. rewrite app_nil_r in E. auto.
  - right. rewrite app_assoc in E. apply app_inj_tail in E as [_ ->]. eauto.
Qed.

Lemma last_derives g f : derives g f -> forall t w, yields f = w ++ [t] -> In (tt t) (lastT g).
Proof.
  induction 1 as [ts t H| |r f H IH|a b f1 f2 H1 IH1 H2 IH2|a b f H IH|a b f H IH|a|a f1 f2 H1 IH1 H2 IH2];
    intros t0 w E; unfold lastT in *; cbn [last_t] in *.
  - change (yields [Leaf t]) with ([] ++ [t]) in E. apply app_inj_tail in E as [_ <-]. exact H.
  - destruct w; discriminate.
  - rewrite yields_node in E. apply IH in E. eapply subset_In; [apply last_table_ok | exact E].
  - rewrite yields_app in E. apply app_snoc_inv in E as [[E1 E2]|[v' E1]].
    + rewrite (nullable_complete _ _ H2 E1). apply union_In. left. eapply IH1. exact E2.
    + specialize (IH2 _ _ E1). destruct (nullable b); [apply union_In; now right | exact IH2].
  - apply union_In. left. eauto.
  - apply union_In. right. eauto.
  - destruct w; discriminate.
  - rewrite yields_app in E. apply app_snoc_inv in E as [[E1 E2]|[v' E1]]; eauto.
Qed.

Lemma last_lang g t w : lang g (w ++ [t]) -> In (tt t) (lastT g).
Proof. intros [f [D Y]]. eapply last_derives; eauto. Qed.

(** ** All tokens *)
Fixpoint alpha_t (tbl : list (list ttype)) (g : gexp) : list ttype :=
  match g with
  | Cls ts => ts
  | Eps => []
  | Nt r => look [] tbl r
  | Seq a b | Alt a b => union (alpha_t tbl a) (alpha_t tbl b)
  | Star a => alpha_t tbl a
  end.

Definition alpha_table : list (list ttype) := Eval vm_compute in
  iter 30 (fun t => map (fun r => alpha_t t (body r)) all_rules) (map (fun _ => []) all_rules).

Definition alphabet (g : gexp) : list ttype := alpha_t alpha_table g.

Lemma alpha_table_ok r : subset (alphabet (body r)) (look [] alpha_table r) = true.
Proof. revert r. apply (all_rules_forall (fun r => subset (alphabet (body r)) (look [] alpha_table r))). vm_compute. reflexivity. Qed.

Lemma alphabet_derives g f : derives g f -> Forall (fun t => In (tt t) (alphabet g)) (yields f).
Proof.
  induction 1 as [ts t H| |r f H IH|a b f1 f2 H1 IH1 H2 IH2|a b f H IH|a b f H IH|a|a f1 f2 H1 IH1 H2 IH2];
    unfold alphabet in *; cbn [alpha_t] in *; rewrite ?yields_app, ?yields_node;
    try (apply Forall_app; split);
    try (eapply Forall_impl; [|eassumption]; intros t Ht; cbn in Ht; rewrite ?union_In; auto; fail);
    try constructor; auto.
  - eapply Forall_impl; [|exact IH]. intros t Ht. cbn in Ht. eapply subset_In; [apply alpha_table_ok | exact Ht].
Qed.

Lemma alphabet_lang g w : lang g w -> Forall (fun t => In (tt t) (alphabet g)) w.
Proof. intros [f [D <-]]. now apply alphabet_derives. Qed.
