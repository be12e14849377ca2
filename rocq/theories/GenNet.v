(** The network reads exactly what the grammar allows: paths from a state and sentences of what remains
    there are the same. *)
From Coq Require Import List NArith ZArith Bool Arith Lia FMapPositive.
From Verif Require Import Lexer Grammar Parser Spec ParserFacts Static Cfws First GenSyntax GenAtn GenCode GenRun GenShape.
Import ListNotations.

(** ** Stacks of expressions *)
Lemma viable_ext g (V W : word -> Prop) : (forall v, V v -> W v) -> forall w, viable g V w -> viable g W w.
Proof. intros H w (u & v & E & L & HV). exists u, v. auto. Qed.

Lemma lang_stack_app a : forall b w, lang_stack (a ++ b) w <-> exists u v, w = u ++ v /\ lang_stack a u /\ lang_stack b v.
Proof.
  induction a as [|g a IH]; intros b w; cbn [app lang_stack].
  - split; [intros H; exists [], w; auto | intros (u & v & E & <- & H); subst; exact H].
  - split.
    + intros (u & v & -> & Hg & H). apply IH in H. destruct H as (u' & v' & -> & H1 & H2).
      exists (u ++ u'), v'. split; [apply app_assoc|]. split; [|exact H2]. exists u, u'. auto.
    + intros (u & v & -> & (u1 & u2 & -> & H1 & H2) & H3). exists u1, (u2 ++ v). split; [symmetry; apply app_assoc|].
      split; [exact H1|]. apply IH. exists u2, v. auto.
Qed.

Lemma lang_stack_seq a b k w : lang_stack (Seq a b :: k) w <-> lang_stack (a :: b :: k) w.
Proof.
  cbn [lang_stack]. split.
  - intros (u & v & -> & H & HV). apply lang_seq in H. destruct H as (u1 & u2 & -> & H1 & H2).
    exists u1, (u2 ++ v). split; [symmetry; apply app_assoc|]. split; [exact H1|]. exists u2, v. auto.
  - intros (u & v & -> & H & (u2 & v2 & -> & H2 & HV)). exists (u ++ u2), v2. split; [apply app_assoc|].
    split; [apply lang_seq; exists u, u2; auto | exact HV].
Qed.

Lemma lang_stack_eps k w : lang_stack (Eps :: k) w <-> lang_stack k w.
Proof.
  cbn [lang_stack]. split.
  - intros (u & v & -> & H & HV). apply lang_eps in H. subst. exact HV.
  - intros H. exists [], w. split; [reflexivity|]. split; [apply lang_eps; reflexivity | exact H].
Qed.

Lemma lang_stack_cons_iff g k k' w : (forall v, lang_stack k v <-> lang_stack k' v) -> lang_stack (g :: k) w <-> lang_stack (g :: k') w.
Proof. intros H. cbn [lang_stack]. split; apply viable_ext; apply H. Qed.

Lemma lang_stack_norm g : forall k w, lang_stack (norm g ++ k) w <-> lang_stack (g :: k) w.
Proof.
  induction g as [ts| |r|a IHa b IHb|a IHa b IHb|a IHa]; intros k w; try reflexivity.
  - cbn [norm app]. symmetry. apply lang_stack_eps.
  - cbn [norm]. rewrite <- app_assoc, IHa, lang_stack_seq. apply lang_stack_cons_iff. intros v. apply IHb.
Qed.

Lemma lang_stack_normk k : forall k' w, lang_stack (normk k ++ k') w <-> lang_stack (k ++ k') w.
Proof.
  induction k as [|g k IH]; intros k' w; [reflexivity|]. unfold normk in *. cbn [flat_map app]. rewrite <- app_assoc, lang_stack_norm.
  apply lang_stack_cons_iff. intros v. apply IH.
Qed.

Lemma lang_stack_nt r k w : lang_stack (Nt r :: k) w <-> lang_stack (body r :: k) w.
Proof.
  cbn [lang_stack]. split; intros (u & v & E & H & HV); exists u, v; (split; [exact E|]); (split; [|exact HV]); apply lang_nt; exact H.
Qed.

Lemma lang_stack_alt a b k w : lang_stack (Alt a b :: k) w <-> lang_stack (a :: k) w \/ lang_stack (b :: k) w.
Proof.
  cbn [lang_stack]. split.
  - intros (u & v & E & H & HV). apply lang_alt in H. destruct H as [H|H]; [left|right]; exists u, v; auto.
  - intros [(u & v & E & H & HV)|(u & v & E & H & HV)]; exists u, v; (split; [exact E|]); (split; [|exact HV]); apply lang_alt; auto.
Qed.

Lemma lang_stack_star a k w : lang_stack (Star a :: k) w <-> lang_stack (a :: Star a :: k) w \/ lang_stack k w.
Proof.
  split.
  - cbn [lang_stack]. intros (u & v & -> & H & HV). apply lang_star in H. destruct H as [->|(u1 & u2 & -> & H1 & H2)].
    + right. exact HV.
    + left. exists u1, (u2 ++ v). split; [symmetry; apply app_assoc|]. split; [exact H1|]. exists u2, v. auto.
  - intros [(u & v & -> & H & (u2 & v2 & -> & H2 & HV))|H].
    + exists (u ++ u2), v2. split; [apply app_assoc|]. split; [|exact HV]. apply lang_star. right. exists u, u2. auto.
    + exists [], w. split; [reflexivity|]. split; [apply lang_star; left; reflexivity | exact H].
Qed.

Lemma lang_stack_flats g : forall k w, lang_stack (g :: k) w <-> exists a, In a (flats g) /\ lang_stack (a :: k) w.
Proof.
  induction g as [ts| |r|a IHa b IHb|a IHa b IHb|a IHa]; intros k w;
    try (cbn [flats]; split; [intros H; eexists; split; [left; reflexivity | exact H] | intros (x & [<-|[]] & H); exact H]).
  rewrite lang_stack_alt, IHa, IHb. cbn [flats]. split.
  - intros [(x & H1 & H2)|(x & H1 & H2)]; exists x; (split; [apply in_or_app; auto | exact H2]).
  - intros (x & H1 & H2). apply in_app_or in H1. destruct H1; [left|right]; exists x; auto.
Qed.

(** ** The kinds of states *)
Inductive kind (s : N) (k : list gexp) : Prop :=
| K_stop : edges s = [] -> is_stop s = true -> k = [] -> kind s k
| K_eps : forall t, edges s = [EEps t] -> is_stop s = false -> res t = Some k -> kind s k
| K_tok : forall rs t ts k', edges s = [ETok rs t] -> is_stop s = false -> k = Cls ts :: k' ->
    (forall x, in_ranges (go_type x) rs = memb x ts) -> res t = Some k' -> kind s k
| K_rule : forall ix r f k', edges s = [ERule (rule_start r) ix f] -> is_stop s = false -> k = Nt r :: k' ->
    res f = Some k' -> kind s k
| K_star : forall t1 t2 a k', edges s = [EEps t1; EEps t2] -> is_stop s = false -> k = Star a :: k' ->
    res t1 = Some (norm a ++ k) -> res t2 = Some k' -> kind s k
| K_alt : forall ts a b k', edges s = map EEps ts -> is_stop s = false -> k = Alt a b :: k' ->
    length ts = length (flats (Alt a b)) ->
    (forall i t g, nth_error ts i = Some t -> nth_error (flats (Alt a b)) i = Some g -> res t = Some (norm g ++ k')) ->
    kind s k.

Lemma go_type_big x : (71 < x)%N -> (70 < go_type x)%Z.
Proof. intros H. unfold go_type, T_EOF. destruct (N.eqb x 71) eqn:E; [apply N.eqb_eq in E; lia | lia]. Qed.

Lemma all_types_spec x : (x <= 71)%N <-> In x all_types.
Proof.
  unfold all_types. rewrite in_map_iff. split.
  - intros H. exists (N.to_nat x). split; [apply N2Nat.id|]. apply in_seq. lia.
  - intros (n & <- & H). apply in_seq in H. lia.
Qed.

Lemma all_eps_map es : all_eps es = true -> es = map EEps (eps_targets es).
Proof.
  unfold all_eps, eps_targets. induction es as [|e es IH]; [reflexivity|]. cbn [forallb flat_map map].
  destruct e; try discriminate. intros H. cbn [app map] in *. rewrite <- IH; [reflexivity | exact H].
Qed.

Lemma state_kind s k : res s = Some k -> kind s k.
Proof.
  intros E. apply state_ok_res in E. unfold state_ok in E.
  assert (Many : forall es, negb (is_stop s) && all_eps es && match k with
      | Star a :: k' => all2 is_res (eps_targets es) [norm a ++ k; k']
      | Alt a b :: k' => all2 is_res (eps_targets es) (map (fun x => norm x ++ k') (flats (Alt a b)))
      | _ => false end = true -> edges s = es -> kind s k).
  { intros es H Ees. apply andb_true_iff in H. destruct H as [H H3]. apply andb_true_iff in H. destruct H as [H1 H2].
    apply negb_true_iff in H1. apply all_eps_map in H2.
    destruct k as [|g k']; [discriminate|]. destruct g as [ts| |r|a b|a b|a]; try discriminate.
    - apply all2_nth in H3. destruct H3 as [Hl Hn]. rewrite map_length in Hl.
      apply (K_alt s _ (eps_targets es) a b k'); [exact (eq_trans Ees H2) | exact H1 | reflexivity | exact Hl |].
      intros i t g E1 E2. apply is_res_spec. apply (Hn i t _ E1).
      rewrite nth_error_map, E2. reflexivity.
    - apply all2_nth in H3. destruct H3 as [Hl Hn]. destruct (eps_targets es) as [|t1 [|t2 [|]]]; try discriminate Hl.
      apply (K_star s _ t1 t2 a k'); [exact (eq_trans Ees H2) | exact H1 | reflexivity | |].
      + apply is_res_spec. apply (Hn 0); reflexivity.
      + apply is_res_spec. apply (Hn 1); reflexivity. }
  destruct (edges s) as [|e es] eqn:Ees.
  - apply andb_true_iff in E. destruct E as [E1 E2]. destruct k; [|discriminate]. apply K_stop; auto.
  - destruct e as [t|rs t|b ix f]; (destruct es as [|e2 es]; [| eapply Many; [exact E | reflexivity]]).
    + apply andb_true_iff in E. destruct E as [E1 E2]. apply negb_true_iff in E1. apply is_res_spec in E2. eapply K_eps; eauto.
    + apply andb_true_iff in E. destruct E as [E1 E2]. apply negb_true_iff in E1.
      destruct k as [|[ts| | | | |] k']; try discriminate.
      apply andb_true_iff in E2. destruct E2 as [E2 E3]. apply andb_true_iff in E2. destruct E2 as [E2 E4].
      apply andb_true_iff in E2. destruct E2 as [E2 E5]. apply is_res_spec in E3.
      apply (K_tok s _ rs t ts k'); auto.
      intros x. destruct (N.leb x 71) eqn:L.
      * apply N.leb_le in L. rewrite forallb_forall in E2. apply Bool.eqb_prop. apply E2. apply all_types_spec. exact L.
      * apply N.leb_gt in L. transitivity false.
        -- unfold in_ranges. rewrite forallb_forall in E5. destruct (existsb _ rs) eqn:X; [|reflexivity].
           apply existsb_exists in X. destruct X as (r & Hr & X). apply andb_true_iff in X. destruct X as [_ X].
           specialize (E5 r Hr). apply Z.leb_le in E5, X. pose proof (go_type_big x L). lia.
        -- symmetry. destruct (memb x ts) eqn:M; [|reflexivity]. apply memb_In in M.
           pose proof (subset_In _ _ _ E4 M) as M'. apply all_types_spec in M'. lia.
    + apply andb_true_iff in E. destruct E as [E1 E2]. apply negb_true_iff in E1.
      destruct k as [|[|  |r| | |] k']; try discriminate.
      apply andb_true_iff in E2. destruct E2 as [E2 E3]. apply andb_true_iff in E2. destruct E2 as [E2 E4].
      apply N.eqb_eq in E2. subst b. apply is_res_spec in E3. eapply K_rule; eauto.
Qed.

(** ** From paths to sentences *)
Definition stack_res (S : list N) (ks : list (list gexp)) : Prop := Forall2 (fun f k => res f = Some k) S ks.

Lemma path_lang s S w : path s S w -> forall k ks, res s = Some k -> stack_res S ks -> lang_stack (k ++ concat ks) w.
Proof.
  induction 1 as [s Hs | s f S w Hs Hp IH | s t S w Hi Hp IH | s rs t S x w Hi Hr Hp IH | s b ix f S w Hi Hp IH]; intros k ks Ek Hks.
  - inversion Hks; subst. destruct (state_kind _ _ Ek); try congruence. subst. reflexivity.
  - inversion Hks as [|? kf ? ks' Ef Hks']; subst. destruct (state_kind _ _ Ek); try congruence. subst. cbn [app concat].
    apply IH; assumption.
  - destruct (state_kind _ _ Ek) as [E Hk|t' E _ Et|? ? ? ? E|? ? ? ? E|t1 t2 a k' E _ -> E1 E2|ts a b k' E _ -> Hl Hn]; rewrite E in Hi.
    + destruct Hi.
    + destruct Hi as [[= ->]|[]]. apply IH; assumption.
    + destruct Hi as [[=]|[]].
    + destruct Hi as [[=]|[]].
    + cbn [app]. apply lang_stack_star. destruct Hi as [[= ->]|[[= ->]|[]]].
      * left. change (Star a :: k' ++ concat ks) with ((Star a :: k') ++ concat ks). apply lang_stack_norm. rewrite app_assoc. apply IH; assumption.
      * right. apply IH; assumption.
    + apply in_map_iff in Hi. destruct Hi as (t' & [= ->] & Hi). apply In_nth_error in Hi. destruct Hi as [i Ei].
      destruct (nth_error (flats (Alt a b)) i) as [g|] eqn:Eg.
      2: { apply nth_error_None in Eg. assert (nth_error ts i <> None) as Hx by congruence. apply nth_error_Some in Hx. lia. }
      cbn [app]. apply lang_stack_flats. exists g. split; [eapply nth_error_In; exact Eg|].
      apply lang_stack_norm. rewrite app_assoc. apply IH; [|assumption]. exact (Hn i t g Ei Eg).
  - destruct (state_kind _ _ Ek) as [E Hk|t' E _ Et|rs' t' ts k' E _ -> Hm Et|? ? ? ? E|t1 t2 a k' E _ -> E1 E2|ts a b k' E _ -> Hl Hn]; rewrite E in Hi.
    + destruct Hi.
    + destruct Hi as [[=]|[]].
    + destruct Hi as [[= -> ->]|[]]. cbn [app lang_stack]. exists [x], w. split; [reflexivity|]. split; [|apply IH; assumption].
      apply lang_cls. exists x. split; [reflexivity|]. apply memb_In. rewrite <- Hm. exact Hr.
    + destruct Hi as [[=]|[]].
    + destruct Hi as [[=]|[[=]|[]]].
    + apply in_map_iff in Hi. destruct Hi as (t' & [=] & _).
  - destruct (state_kind _ _ Ek) as [E Hk|t' E _ Et|rs' t' ts k' E _ -> Hm Et|ix' r f' k' E _ -> Ef|t1 t2 a k' E _ -> E1 E2|ts a b' k' E _ -> Hl Hn]; rewrite E in Hi.
    + destruct Hi.
    + destruct Hi as [[=]|[]].
    + destruct Hi as [[=]|[]].
    + destruct Hi as [[= <- <- ->]|[]]. cbn [app]. apply lang_stack_nt. apply lang_stack_norm.
      change (k' ++ concat ks) with (concat (k' :: ks)). apply IH; [apply res_start|]. constructor; assumption.
    + destruct Hi as [[=]|[[=]|[]]].
    + apply in_map_iff in Hi. destruct Hi as (t' & [=] & _).
Qed.

(** ** From sentences to paths *)

(** Silent transitions can be skipped. *)
Lemma settle n : forall s k, settles n s = true -> res s = Some k ->
  exists s', res s' = Some k /\ (forall t, edges s' <> [EEps t]) /\ (forall S w, path s' S w -> path s S w).
Proof.
  induction n as [|n IH]; intros s k Hs Ek; cbn [settles] in Hs.
  - exists s. split; [exact Ek|]. split; [|auto]. intros t E. rewrite E in Hs. discriminate.
  - destruct (edges s) as [|[t|rs t|b ix f] [|e es]] eqn:E;
      try (exists s; split; [exact Ek|]; split; [intros t' E'; rewrite E in E'; discriminate | auto]).
    destruct (state_kind _ _ Ek) as [E'|t' E' _ Et|? ? ? ? E'|? ? ? ? E'|? ? ? ? E'|ts a b k' E' _ -> Hl Hn]; rewrite E in E'; try discriminate.
    + injection E' as <-. destruct (IH t k Hs Et) as (s' & H1 & H2 & H3). exists s'. split; [exact H1|]. split; [exact H2|].
      intros S w Hp. apply (p_eps s t); [rewrite E; left; reflexivity|]. apply H3. exact Hp.
    + destruct ts as [|t1 [|]]; try discriminate. cbn [flats] in Hl. rewrite app_length in Hl.
      assert (P : forall g, 1 <= length (flats g)).
      { induction g; cbn; try lia. rewrite app_length. lia. }
      pose proof (P a). pose proof (P b). cbn in Hl. lia.
Qed.

Lemma settle_res s k : res s = Some k ->
  exists s', res s' = Some k /\ (forall t, edges s' <> [EEps t]) /\ (forall S w, path s' S w -> path s S w).
Proof. intros E. apply (settle 8); [eapply settles_res; exact E | exact E]. Qed.

(** The trees [f] can be read from any state before which [a] and then [k] remain. *)
Definition readable (a : list gexp) (f : list tree) : Prop := forall s k S v,
  res s = Some (a ++ k) -> (forall s', res s' = Some k -> path s' S v) -> path s S (yields f ++ v).

Lemma readable_alt g f : (exists a b, g = Alt a b) -> (exists a, In a (flats g) /\ readable (norm a) f) -> readable (norm g) f.
Proof.
  intros (a & b & ->) (x & Hx & R) s k S v Es Hk. cbn [norm app] in Es.
  destruct (settle_res _ _ Es) as (s' & Es' & Hne & Hp). apply Hp.
  destruct (state_kind _ _ Es') as [? _ [=]|t E _ _|? ? ? ? ? _ [=]|? ? ? ? ? _ [=]|? ? ? ? ? _ [=]|ts a' b' k' E _ [= <- <- <-] Hl Hn].
  - exfalso. exact (Hne t E).
  - apply In_nth_error in Hx. destruct Hx as [i Ei]. destruct (nth_error ts i) as [t|] eqn:Et.
    2: { apply nth_error_None in Et. assert (nth_error (flats (Alt a b)) i <> None) as Hx by congruence. apply nth_error_Some in Hx. lia. }
    apply (p_eps s' t); [rewrite E; apply in_map; eapply nth_error_In; exact Et|].
    apply (R t k); [|exact Hk]. exact (Hn i t x Et Ei).
Qed.

Lemma derives_readable g f : derives g f -> readable (norm g) f /\ exists a, In a (flats g) /\ readable (norm a) f.
Proof.
  assert (One : forall g f, flats g = [g] -> readable (norm g) f -> readable (norm g) f /\ exists a, In a (flats g) /\ readable (norm a) f).
  { intros g' f' E R. split; [exact R|]. exists g'. rewrite E. split; [left; reflexivity | exact R]. }
  induction 1 as [ts x Hx | | r f D [IH _] | a b f1 f2 D1 [IH1 _] D2 [IH2 _] | a b f D [_ IH] | a b f D [_ IH] | a | a f1 f2 D1 [IH1 _] D2 [IH2 _]].
  - apply One; [reflexivity|]. intros s k S v Es Hk. cbn [norm app] in Es.
    destruct (settle_res _ _ Es) as (s' & Es' & Hne & Hp). apply Hp.
    destruct (state_kind _ _ Es') as [? _ [=]|t E _ _|rs t ts' k' E _ [= <- <-] Hm Et|? ? ? ? ? _ [=]|? ? ? ? ? _ [=]|? ? ? ? ? _ [=] ? ?].
    + exfalso. exact (Hne t E).
    + cbn [yields flat_map yield app]. apply (p_tok s' rs t); [rewrite E; left; reflexivity | | apply Hk; exact Et].
      rewrite Hm. apply memb_In. exact Hx.
  - apply One; [reflexivity|]. intros s k S v Es Hk. apply Hk. exact Es.
  - apply One; [reflexivity|]. intros s k S v Es Hk. cbn [norm app] in Es. rewrite yields_node.
    destruct (settle_res _ _ Es) as (s' & Es' & Hne & Hp). apply Hp.
    destruct (state_kind _ _ Es') as [? _ [=]|t E _ _|? ? ? ? ? _ [=]|ix r' f' k' E _ [= <- <-] Ef|? ? ? ? ? _ [=]|? ? ? ? ? _ [=] ? ?].
    + exfalso. exact (Hne t E).
    + apply (p_rule s' (rule_start r) ix f'); [rewrite E; left; reflexivity|].
      apply (IH (rule_start r) []); [rewrite app_nil_r; apply res_start|]. intros s1 E1.
      destruct (settle_res _ _ E1) as (s2 & E2 & Hne2 & Hp2). apply Hp2.
      destruct (state_kind _ _ E2) as [E3 Hst _|t3 E3 _ _|? ? ? ? ? _ [=]|? ? ? ? ? _ [=]|? ? ? ? ? _ [=]|? ? ? ? ? _ [=] ? ?].
      * apply p_ret; [exact Hst|]. apply Hk. exact Ef.
      * exfalso. exact (Hne2 t3 E3).
  - apply One; [reflexivity|]. intros s k S v Es Hk. cbn [norm] in Es. rewrite <- app_assoc in Es.
    rewrite yields_app, <- app_assoc. apply (IH1 s (norm b ++ k)); [exact Es|]. intros s' Es'.
    apply (IH2 s' k); [exact Es' | exact Hk].
  - assert (X : exists x, In x (flats (Alt a b)) /\ readable (norm x) f).
    { destruct IH as (x & Hx & R). exists x. split; [cbn [flats]; apply in_or_app; left; exact Hx | exact R]. }
    split; [|exact X]. apply readable_alt; [exists a, b; reflexivity | exact X].
  - assert (X : exists x, In x (flats (Alt a b)) /\ readable (norm x) f).
    { destruct IH as (x & Hx & R). exists x. split; [cbn [flats]; apply in_or_app; right; exact Hx | exact R]. }
    split; [|exact X]. apply readable_alt; [exists a, b; reflexivity | exact X].
  - apply One; [reflexivity|]. intros s k S v Es Hk. cbn [norm app] in Es.
    destruct (settle_res _ _ Es) as (s' & Es' & Hne & Hp). apply Hp.
    destruct (state_kind _ _ Es') as [? _ [=]|t E _ _|? ? ? ? ? _ [=]|? ? ? ? ? _ [=]|t1 t2 a' k' E _ [= <- <-] E1 E2|? ? ? ? ? _ [=] ? ?].
    + exfalso. exact (Hne t E).
    + apply (p_eps s' t2); [rewrite E; right; left; reflexivity|]. apply Hk. exact E2.
  - apply One; [reflexivity|]. intros s k S v Es Hk. cbn [norm app] in Es.
    destruct (settle_res _ _ Es) as (s' & Es' & Hne & Hp). apply Hp.
    destruct (state_kind _ _ Es') as [? _ [=]|t E _ _|? ? ? ? ? _ [=]|? ? ? ? ? _ [=]|t1 t2 a' k' E _ [= <- <-] E1 E2|? ? ? ? ? _ [=] ? ?].
    + exfalso. exact (Hne t E).
    + apply (p_eps s' t1); [rewrite E; left; reflexivity|]. rewrite yields_app, <- app_assoc.
      apply (IH1 t1 (Star a :: k)); [exact E1|]. intros s1 Es1. apply (IH2 s1 k); [exact Es1 | exact Hk].
Qed.

Lemma lang_readable k : forall u, lang_stack k u -> exists f, yields f = u /\ readable (normk k) f.
Proof.
  induction k as [|g k IH]; intros u H.
  - cbn [lang_stack] in H. subst u. exists []. split; [reflexivity|]. intros s k S v Es Hk. apply Hk. exact Es.
  - cbn [lang_stack] in H. destruct H as (u1 & u2 & -> & (f1 & D & <-) & H2). destruct (IH _ H2) as (f2 & <- & R2).
    exists (f1 ++ f2). split; [apply yields_app|]. intros s k' S v Es Hk. rewrite yields_app, <- app_assoc.
    unfold normk in Es. cbn [flat_map] in Es. rewrite <- app_assoc in Es.
    apply (proj1 (derives_readable _ _ D) s (normk k ++ k')); [exact Es|]. intros s' Es'. apply (R2 s' k'); [exact Es' | exact Hk].
Qed.

Lemma res_normal s k : res s = Some k -> normk k = k.
Proof.
  assert (C : for_states (fun _ k => kl_eqb (normk k) k) = true) by (vm_compute; reflexivity).
  intros E. apply kl_eqb_eq. exact (for_states_spec _ C s k E).
Qed.

Lemma path_of_stack S : forall ks v, stack_res S ks -> lang_stack (concat ks) v -> forall s, res s = Some [] -> path s S v.
Proof.
  induction S as [|f S IH]; intros ks v Hks Hl s Es.
  - inversion Hks; subst. cbn [concat lang_stack] in Hl. subst v.
    destruct (settle_res _ _ Es) as (s' & Es' & Hne & Hp). apply Hp.
    destruct (state_kind _ _ Es') as [E3 Hst _|t3 E3 _ _|? ? ? ? ? _ [=]|? ? ? ? ? _ [=]|? ? ? ? ? _ [=]|? ? ? ? ? _ [=] ? ?].
    + apply p_done. exact Hst.
    + exfalso. exact (Hne t3 E3).
  - inversion Hks as [|? kf ? ks' Ef Hks']; subst. cbn [concat] in Hl.
    destruct (settle_res _ _ Es) as (s' & Es' & Hne & Hp). apply Hp.
    destruct (state_kind _ _ Es') as [E3 Hst _|t3 E3 _ _|? ? ? ? ? _ [=]|? ? ? ? ? _ [=]|? ? ? ? ? _ [=]|? ? ? ? ? _ [=] ? ?].
    + apply p_ret; [exact Hst|]. apply lang_stack_app in Hl. destruct Hl as (u1 & u2 & -> & H1 & H2).
      destruct (lang_readable _ _ H1) as (fs & <- & R). rewrite (res_normal _ _ Ef) in R.
      apply (R f []); [rewrite app_nil_r; exact Ef|]. intros s1 E1. apply (IH ks'); assumption.
    + exfalso. exact (Hne t3 E3).
Qed.

(** The paths of the network are the sentences of what remains. *)
Theorem path_iff s S k ks w : res s = Some k -> stack_res S ks -> (path s S w <-> lang_stack (k ++ concat ks) w).
Proof.
  intros Es Hks. split; [intros H; exact (path_lang _ _ _ H k ks Es Hks)|].
  intros Hl. apply lang_stack_app in Hl. destruct Hl as (u1 & u2 & -> & H1 & H2).
  destruct (lang_readable _ _ H1) as (fs & <- & R). rewrite (res_normal _ _ Es) in R.
  apply (R s []); [rewrite app_nil_r; exact Es|]. intros s1 E1. apply (path_of_stack S ks); assumption.
Qed.

(** The same for every state: where nothing is recorded, the network is stuck. *)
Definition resd (s : N) : list gexp := match res s with Some k => k | None => [Cls []] end.

Lemma no_res : forallb (fun x => match PositiveMap.find (fst x) residuals with Some _ => true | None => negb (N.eqb (snd x) 7) end)
    (PositiveMap.elements (a_types parser_atn)) &&
  forallb (fun x => match PositiveMap.find (fst x) residuals with Some _ => true | None => match snd x with [] => true | _ => false end end)
    (PositiveMap.elements (a_edges parser_atn)) = true.
Proof. vm_compute. reflexivity. Qed.

Lemma stuck s S w : res s = None -> ~ path s S w.
Proof.
  intros E. pose proof no_res as H. apply andb_true_iff in H. destruct H as [H1 H2].
  assert (A : is_stop s = false).
  { unfold is_stop, get. destruct (PositiveMap.find (N.succ_pos s) (a_types parser_atn)) as [t|] eqn:F; [|reflexivity].
    apply PositiveMap.elements_correct in F. rewrite forallb_forall in H1. specialize (H1 _ F). cbn [fst snd] in H1.
    unfold res, get in E. rewrite E in H1. apply negb_true_iff in H1. exact H1. }
  assert (C : edges s = []).
  { unfold edges, get. destruct (PositiveMap.find (N.succ_pos s) (a_edges parser_atn)) as [l|] eqn:F; [|reflexivity].
    apply PositiveMap.elements_correct in F. rewrite forallb_forall in H2. specialize (H2 _ F). cbn [fst snd] in H2.
    unfold res, get in E. rewrite E in H2. destruct l; [reflexivity | discriminate]. }
  intros P. inversion P; subst; try congruence; match goal with H : In _ (edges s) |- _ => rewrite C in H; destruct H end.
Qed.

Lemma path_through s S w : path s S w -> forall A f B, S = A ++ f :: B -> exists v, path f B v.
Proof.
  induction 1 as [s Hs | s f S w Hs Hp IH | s t S w Hi Hp IH | s rs t S x w Hi Hr Hp IH | s b ix f S w Hi Hp IH]; intros A f0 B E.
  - destruct A; discriminate.
  - destruct A as [|a A]; cbn [app] in E; injection E as <- ->; [exists w; exact Hp | exact (IH A f0 B eq_refl)].
  - exact (IH A f0 B E).
  - exact (IH A f0 B E).
  - apply (IH (f :: A) f0 B). rewrite E. reflexivity.
Qed.

Lemma no_lang a k w : ~ lang_stack (a ++ Cls [] :: k) w.
Proof.
  intros H. apply lang_stack_app in H. destruct H as (u & v & _ & _ & H). cbn [lang_stack] in H.
  destruct H as (u1 & v1 & _ & L & _). apply lang_cls in L. destruct L as (t & _ & []).
Qed.

Theorem path_iff_all s S w : path s S w <-> lang_stack (resd s ++ flat_map resd S) w.
Proof.
  destruct (res s) as [k|] eqn:Es.
  2: { split; [intros P; exfalso; exact (stuck _ _ _ Es P)|]. unfold resd at 1. rewrite Es. intros H. exfalso. exact (no_lang [] _ _ H). }
  assert (D : (exists ks, stack_res S ks /\ flat_map resd S = concat ks) \/ exists A f B, S = A ++ f :: B /\ res f = None).
  { clear. induction S as [|f S IH]; [left; exists []; split; [constructor | reflexivity]|].
    destruct (res f) as [k|] eqn:Ef; [|right; exists [], f, S; auto].
    destruct IH as [(ks & H1 & H2)|(A & f' & B & -> & E)].
    - left. exists (k :: ks). split; [constructor; assumption|]. cbn [flat_map concat]. rewrite H2. unfold resd. rewrite Ef. reflexivity.
    - right. exists (f :: A), f', B. auto. }
  destruct D as [(ks & H1 & H2)|(A & f & B & -> & E)].
  - unfold resd at 1. rewrite Es, H2. apply path_iff; assumption.
  - split.
    + intros P. destruct (path_through _ _ _ P A f B eq_refl) as (v & Q). exfalso. exact (stuck _ _ _ E Q).
    + intros H. exfalso. rewrite flat_map_app in H. cbn [flat_map] in H. unfold resd at 3 in H. rewrite E in H. cbn [app] in H.
      rewrite app_assoc in H. exact (no_lang _ _ _ H).
Qed.

(** The next token of a path passes Sync. *)
Lemma path_next s S w : path s S w -> forall A B, S = A ++ B -> next s A None \/ (exists x v, w = x :: v /\ next s A (Some (tt x))).
Proof.
  induction 1 as [s Hs | s f S w Hs Hp IH | s t S w Hi Hp IH | s rs t S x w Hi Hr Hp IH | s b ix f S w Hi Hp IH]; intros A B E.
  - destruct A; [|discriminate]. left. apply n_done. exact Hs.
  - destruct A as [|f' A].
    + left. apply n_done. exact Hs.
    + injection E as <- ->. destruct (IH A B eq_refl) as [H|(x & v & -> & H)].
      * left. apply n_ret; assumption.
      * right. exists x, v. split; [reflexivity|]. apply n_ret; assumption.
  - destruct (IH A B E) as [H|(x & v & -> & H)].
    + left. eapply n_eps; eassumption.
    + right. exists x, v. split; [reflexivity|]. eapply n_eps; eassumption.
  - right. exists x, w. split; [reflexivity|]. eapply n_tok; eassumption.
  - destruct (IH (f :: A) B) as [H|(x & v & -> & H)]; [subst; reflexivity | |].
    + left. eapply n_rule; eassumption.
    + right. exists x, v. split; [reflexivity|]. eapply n_rule; eassumption.
Qed.
