(** A run with recovery ends, whatever the error handler replies. *)
From Coq Require Import List NArith ZArith Bool Arith Lia FMapPositive.
From Verif Require Import Lexer Grammar Parser Spec ParserFacts Static Cfws First GenSyntax GenAtn GenCode GenRun GenShape GenNet GenCheck GenFacts GenWit GenRecover.
Import ListNotations.

(** ** The progress of a run *)

(** The states of the parser are less than [NS]. *)
Definition NS : nat := 1200.
Definition ok_state (c : N) : Prop := (c < N.of_nat NS)%N.

(** How many states are not yet recorded. *)
Definition count (l : list N) : nat := length (filter (fun n => negb (seen n l)) (map N.of_nat (seq 0 NS))).

Definition room (m : mem) : nat :=
  match lix m with Some i => if Nat.eqb i (length (ws m)) then count (lst m) else NS | None => NS end.

(** It never grows. *)
Definition phi (m : mem) : nat := length (ws m) * S NS + room m.

Lemma seen_In n l : seen n l = true <-> In n l.
Proof. unfold seen. rewrite existsb_exists. split; [intros (x & H & E); apply N.eqb_eq in E; subst; exact H | intros H; exists n; rewrite N.eqb_refl; auto]. Qed.

Lemma filter_le {A} (p q : A -> bool) l : (forall x, p x = true -> q x = true) -> length (filter p l) <= length (filter q l).
Proof.
  intros H. induction l as [|x l IH]; [apply le_n|]. cbn [filter]. destruct (p x) eqn:E.
  - rewrite (H x E). cbn [length]. lia.
  - destruct (q x); cbn [length]; lia.
Qed.

Lemma filter_lt {A} (p q : A -> bool) l y : (forall x, p x = true -> q x = true) -> In y l -> p y = false -> q y = true ->
  length (filter p l) < length (filter q l).
Proof.
  intros H. induction l as [|x l IH]; intros Hy Hp Hq; [destruct Hy|]. cbn [filter]. destruct Hy as [->|Hy].
  - rewrite Hp, Hq. cbn [length]. pose proof (filter_le p q l H). lia.
  - specialize (IH Hy Hp Hq). destruct (p x) eqn:E.
    + rewrite (H x E). cbn [length]. lia.
    + destruct (q x); cbn [length]; lia.
Qed.

Lemma filter_full {A} (p : A -> bool) l : length (filter p l) <= length l.
Proof. induction l as [|x l IH]; [apply le_n|]. cbn [filter]. destruct (p x); cbn [length]; lia. Qed.

Lemma count_le l : count l <= NS.
Proof. unfold count. eapply Nat.le_trans; [apply filter_full|]. rewrite map_length, seq_length. apply le_n. Qed.

Lemma seen_cons c n l : seen n (c :: l) = N.eqb n c || seen n l. Proof. reflexivity. Qed.

Lemma count_cons c l : count (c :: l) <= count l.
Proof. apply filter_le. intros x. rewrite seen_cons. destruct (N.eqb x c); [discriminate | auto]. Qed.

Lemma count_new c l : ok_state c -> seen c l = false -> count (c :: l) < count l.
Proof.
  intros Hc Hs. apply filter_lt with (y := c).
  - intros x. rewrite seen_cons. destruct (N.eqb x c); [discriminate | auto].
  - apply in_map_iff. exists (N.to_nat c). rewrite N2Nat.id. split; [reflexivity|]. apply in_seq. unfold ok_state in Hc. lia.
  - rewrite seen_cons, N.eqb_refl. reflexivity.
  - rewrite Hs. reflexivity.
Qed.

Lemma count_old c l : seen c l = true -> count (c :: l) = count l.
Proof.
  intros Hs. unfold count. f_equal. apply filter_ext. intros x. rewrite seen_cons. destruct (N.eqb_spec x c); [subst; rewrite Hs|]; reflexivity.
Qed.

Lemma count_first c l : ok_state c -> count (c :: l) < NS.
Proof.
  intros Hc. destruct (seen c l) eqn:E.
  - rewrite (count_old _ _ E). unfold count. replace NS with (length (filter (fun _ => true) (map N.of_nat (seq 0 NS)))) at 2.
    + apply filter_lt with (y := c); [reflexivity | | rewrite E; reflexivity | reflexivity].
      apply in_map_iff. exists (N.to_nat c). rewrite N2Nat.id. split; [reflexivity|]. apply in_seq. unfold ok_state in Hc. lia.
    + replace (filter (fun _ => true) (map N.of_nat (seq 0 NS))) with (map N.of_nat (seq 0 NS)).
      * rewrite map_length. apply seq_length.
      * generalize (map N.of_nat (seq 0 NS)). intros l0. induction l0 as [|x l0 IH]; [reflexivity|]. cbn [filter]. f_equal. exact IH.
  - pose proof (count_new c l Hc E). pose proof (count_le l). lia.
Qed.

Opaque NS.

Lemma room_le m : room m <= NS.
Proof. unfold room. destruct (lix m) as [i|]; [|apply le_n]. destruct (Nat.eqb i (length (ws m))); [apply count_le | apply le_n]. Qed.

Lemma phi_less m' m : length (ws m') < length (ws m) -> phi m' < phi m.
Proof.
  intros H. unfold phi. pose proof (room_le m'). assert (S (length (ws m')) * S NS <= length (ws m) * S NS) by (apply Nat.mul_le_mono_r; lia).
  cbn [Nat.mul] in *. lia.
Qed.

(** [m'] comes after [m], with progress or in the same place. *)
Definition near (m' m : mem) : Prop := phi m' < phi m \/ (ws m' = ws m /\ phi m' = phi m).

Lemma near_refl m : near m m. Proof. right. auto. Qed.
Lemma near_trans a b c : near a b -> near b c -> near a c.
Proof. unfold near. intros [H|[H1 H2]] [K|[K1 K2]]; [left; lia | left; lia | left; lia | right; split; congruence]. Qed.
Lemma near_le a b : near a b -> phi a <= phi b. Proof. unfold near. lia. Qed.
Lemma near_lt a b c : near a b -> phi b < phi c -> phi a < phi c. Proof. intros H. apply near_le in H. lia. Qed.

Lemma near_report m : near (report m) m.
Proof. right. unfold report. destruct (mode m); split; reflexivity. Qed.

Lemma consume_cases w : consume w = w /\ la w = T_EOF \/ length (consume w) < length w /\ la w <> T_EOF.
Proof.
  destruct w as [|x w]; [left; split; reflexivity|]. cbn [consume la]. destruct (N.eqb_spec (tt x) T_EOF); [left; auto | right; cbn [length]; split; [lia | assumption]].
Qed.

Lemma near_eat m : near (eat m) m.
Proof.
  destruct (consume_cases (ws m)) as [[E _]|[E _]].
  - right. unfold eat, put, phi, room. cbn. rewrite E. auto.
  - left. apply phi_less. exact E.
Qed.

Lemma eat_less m : la (ws m) <> T_EOF -> phi (eat m) < phi m.
Proof. intros H. destruct (consume_cases (ws m)) as [[_ E]|[E _]]; [contradiction | apply phi_less; exact E]. Qed.

Lemma near_skip k : forall m, near (skip k m) m.
Proof. induction k as [|k IH]; intros m; [apply near_refl|]. cbn [skip]. eapply near_trans; [apply IH | apply near_eat]. Qed.

Lemma ws_report m : ws (report m) = ws m. Proof. unfold report. destruct (mode m); reflexivity. Qed.

Lemma delete_less m : la (ws m) <> T_EOF -> phi (matched (eat (report m))) < phi m.
Proof.
  intros H. apply phi_less. cbn. rewrite ws_report. destruct (consume_cases (ws m)) as [[_ E]|[E _]]; [contradiction | exact E].
Qed.

Lemma match_less m x w : ws m = x :: w -> phi (matched (put m w)) < phi m.
Proof. intros H. apply phi_less. cbn [matched put ws]. rewrite H. cbn [length]. lia. Qed.

Lemma recover_near c k m : ok_state c -> near (recover c k m) m /\ (la (ws m) <> T_EOF -> phi (recover c k m) < phi m).
Proof.
  intros Hc. unfold recover.
  set (again := match lix m with Some i => Nat.eqb i (length (ws m)) && seen c (lst m) | None => false end).
  set (m1 := if again then eat m else m). set (m2 := mkMem (ws m1) (mode m1) (failed m1) (Some (length (ws m1))) (c :: lst m1)).
  assert (H : near m2 m /\ (la (ws m) <> T_EOF -> phi m2 < phi m)).
  { destruct again eqn:Ea; unfold again in Ea.
    - destruct (lix m) as [i|] eqn:El; [|discriminate]. apply andb_true_iff in Ea as [E1 E2]. apply Nat.eqb_eq in E1.
      destruct (consume_cases (ws m)) as [[E Eo]|[E Eo]].
      + split; [|intros; contradiction]. right. unfold m2, m1, eat, put, phi, room. cbn. rewrite E. split; [reflexivity|].
        rewrite El, E1, Nat.eqb_refl, (count_old _ _ E2). reflexivity.
      + assert (phi m2 < phi m) by (apply phi_less; exact E). split; [left|]; auto.
    - assert (phi m2 < phi m); [|split; [left|]; auto]. unfold m2, m1, phi, room. cbn [ws lix lst]. rewrite Nat.eqb_refl.
      destruct (lix m) as [i|] eqn:El; [|pose proof (count_first c (lst m) Hc); lia].
      destruct (Nat.eqb i (length (ws m))) eqn:E1; [|pose proof (count_first c (lst m) Hc); lia].
      cbn [andb] in Ea. pose proof (count_new c (lst m) Hc Ea). lia. }
  destruct H as [H1 H2]. split; [eapply near_trans; [apply near_skip | exact H1]|]. intros He. eapply near_lt; [apply near_skip | auto].
Qed.

(** ** What is checked of the code *)
(* depth without progress: [lks] from any place, [rks] from where the next token fits *)
Fixpoint lk1 (tbl : list nat) (s : stmt) : nat :=
  let lks := fix lks (l : list stmt) : nat :=
    match l with [] => 1 | s :: l' => S (Nat.max (lk1 tbl s) (lks l')) end in
  match s with
  | SState _ | SSync | SMatch _ | SMatchSet _ => 0
  | SCall r => look 0 tbl r
  | SIfLa _ b | SWhileLa _ b | SWhilePredict _ b _ => rks b
  | SDoLa _ b => Nat.max (lks b) (S (rks b))
  | SDoPredict _ b t => Nat.max (lks b) (Nat.max (lks t) (S (rks b)))
  | SSwitchLa bs => fold_right (fun x m => Nat.max (rks (snd x)) m) 0 bs
  | SPredict _ bs => fold_right (fun x m => Nat.max (rks x) m) 0 bs
  end.
Definition lks_t (tbl : list nat) : list stmt -> nat :=
  fix lks (l : list stmt) : nat := match l with [] => 1 | s :: l' => S (Nat.max (lk1 tbl s) (lks l')) end.
Definition lost_table : list nat := Eval vm_compute in
  iter 67 (fun t => map (fun r => lks_t t (code r)) all_rules) (map (fun _ => 0) all_rules).
Definition lks : list stmt -> nat := lks_t lost_table.

(** Where the next token fits, rules that can be empty are not called before a token is consumed. *)
Fixpoint gok1 (s : stmt) : bool :=
  let goks := fix goks (l : list stmt) : bool := match l with [] => true | s :: l' => gok1 s && (if nul s then goks l' else true) end in
  match s with
  | SState _ | SSync | SMatch _ | SMatchSet _ => true
  | SCall r => negb (nullable (Nt r))
  | SIfLa _ b | SWhileLa _ b | SDoLa _ b => goks b
  | SSwitchLa bs => forallb (fun x => goks (snd x)) bs
  | SPredict _ bs => forallb goks bs
  | SWhilePredict _ b _ | SDoPredict _ b _ => goks b
  end.
Definition goks : list stmt -> bool :=
  fix goks (l : list stmt) : bool := match l with [] => true | s :: l' => gok1 s && (if nul s then goks l' else true) end.

(** A body that is only entered when the next token can begin it. *)
Definition guard (b : list stmt) : bool := negb (nullable (gx b)) && negb (memb T_EOF (first (gx b))) && goks b.

Fixpoint grd1 (s : stmt) : bool :=
  let grds := fix grds (l : list stmt) : bool :=
    match l with [] => true | s :: l' => Nat.leb (lks (s :: l')) BC && grd1 s && grds l' end in
  match s with
  | SState n => N.ltb n (N.of_nat NS)
  | SSync | SMatch _ | SMatchSet _ => true
  | SCall r => N.ltb (enter_state r) (N.of_nat NS) && Nat.leb (rks (code r)) (look 0 code_rank_table r) && Nat.leb (lks (code r)) (look 0 lost_table r)
  | SIfLa c b | SWhileLa c b | SDoLa c b => subset (cond_set c) (first (gx b)) && guard b && grds b
  | SSwitchLa bs => forallb (fun x => subset (fst x) (first (gx (snd x))) && guard (snd x) && grds (snd x)) bs
  | SPredict _ bs => forallb (fun b => guard b && grds b) bs
  | SWhilePredict _ b t | SDoPredict _ b t => guard b && grds b && grds t
  end.
Definition grds : list stmt -> bool :=
  fix grds (l : list stmt) : bool := match l with [] => true | s :: l' => Nat.leb (lks (s :: l')) BC && grd1 s && grds l' end.

Lemma code_guarded : forallb (fun r => grds (code r) && goks (code r) && N.ltb (enter_state r) (N.of_nat NS)) all_rules = true.
Proof. vm_compute. reflexivity. Qed.

Lemma code_grds r : grds (code r) = true /\ goks (code r) = true /\ ok_state (enter_state r).
Proof.
  assert (H : grds (code r) && goks (code r) && N.ltb (enter_state r) (N.of_nat NS) = true) by (revert r; apply all_rules_forall; exact code_guarded).
  apply andb_true_iff in H as [H H3]. apply andb_true_iff in H as [H1 H2]. apply N.ltb_lt in H3. auto.
Qed.

Lemma grds_cons s l : grds (s :: l) = Nat.leb (lks (s :: l)) BC && grd1 s && grds l. Proof. reflexivity. Qed.
Lemma grd1_if c b : grd1 (SIfLa c b) = subset (cond_set c) (first (gx b)) && guard b && grds b. Proof. reflexivity. Qed.
Lemma grd1_while c b : grd1 (SWhileLa c b) = subset (cond_set c) (first (gx b)) && guard b && grds b. Proof. reflexivity. Qed.
Lemma grd1_do c b : grd1 (SDoLa c b) = subset (cond_set c) (first (gx b)) && guard b && grds b. Proof. reflexivity. Qed.
Lemma grd1_switch bs : grd1 (SSwitchLa bs) = forallb (fun x => subset (fst x) (first (gx (snd x))) && guard (snd x) && grds (snd x)) bs. Proof. reflexivity. Qed.
Lemma grd1_predict d bs : grd1 (SPredict d bs) = forallb (fun b => guard b && grds b) bs. Proof. reflexivity. Qed.
Lemma grd1_whilep d b t : grd1 (SWhilePredict d b t) = guard b && grds b && grds t. Proof. reflexivity. Qed.
Lemma grd1_dop d b t : grd1 (SDoPredict d b t) = guard b && grds b && grds t. Proof. reflexivity. Qed.
Lemma lks_cons s l : lks (s :: l) = S (Nat.max (lk1 lost_table s) (lks l)). Proof. reflexivity. Qed.
Lemma goks_cons s l : goks (s :: l) = gok1 s && (if nul s then goks l else true). Proof. reflexivity. Qed.

(** ** A run never goes back *)
Definition nearby (m : mem) (o : routcome) : Prop :=
  match o with RDone _ c m' | RRaise c m' => ok_state c /\ near m' m | RFuel => True end.

Lemma treeless_nearby m : treeless (nearby m). Proof. intros f g c m'. auto. Qed.

Lemma nearby_trans m m' o : near m' m -> nearby m' o -> nearby m o.
Proof. intros H. destruct o as [f c v|c v|]; cbn [nearby]; [intros [H1 H2]; split; [exact H1 | eapply near_trans; eassumption] | intros [H1 H2]; split; [exact H1 | eapply near_trans; eassumption] | auto]. Qed.

Lemma catch_near r cur m o : ok_state cur -> nearby m o -> revery (nearby m) (catch r cur o).
Proof.
  intros Hc. destruct o as [f c v|c v|]; cbn [catch revery nearby]; [intros [_ H]; auto | | auto].
  intros [H1 H2] i. split; [exact Hc|]. eapply near_trans; [apply (proj1 (recover_near c i _ H1))|]. eapply near_trans; [apply near_report | exact H2].
Qed.

Lemma fair_delete n t r : fair_sync n t r -> r = SyncDelete -> t <> T_EOF.
Proof. intros [_ H]. exact H. Qed.

Lemma inline_near cur m go : ok_state cur -> (forall v, near v m -> revery (nearby m) (go v)) -> revery (nearby m) (inline cur m go).
Proof.
  intros Hc Hg. unfold inline. cbn [revery]. intros [| |] Hf; cbn [revery].
  - apply Hg. eapply near_trans; [apply near_eat|]. left. apply delete_less. apply Hf. reflexivity.
  - apply Hg. apply near_report.
  - split; [exact Hc | apply near_refl].
Qed.

Lemma rrun_near n : forall cs cur st m, grds cs = true -> ok_state cur -> revery (nearby m) (rrun n cs cur st m).
Proof.
  induction n as [|n IH]; intros cs cur st m Hg Hc; [exact I|]. cbn [rrun]. destruct cs as [|s cs]; [split; [exact Hc | apply near_refl]|].
  assert (Hg0 := Hg). rewrite grds_cons in Hg. apply andb_true_iff in Hg as [Hg1 Hg]. apply andb_true_iff in Hg1 as [_ Hg1].
  assert (Go : forall cs0 c v, grds cs0 = true -> ok_state c -> near v m -> revery (nearby m) (rrun n cs0 c st v)).
  { intros cs0 c v H1 H2 H3. eapply revery_mono; [|apply (IH cs0 c st v H1 H2)]. intros o. apply nearby_trans. exact H3. }
  assert (Seq : forall p k, revery (nearby m) p -> (forall c v, ok_state c -> near v m -> revery (nearby m) (k c v)) -> revery (nearby m) (rthen p k)).
  { intros p k H1 H2. eapply then_treeless; [apply treeless_nearby | exact H1 | | auto | auto]. intros f c v [Ha Hb]. apply H2; assumption. }
  destruct s as [q| |t|cd|r|cd b|cd b|cd b|bs|d bs|d b t|d b t].
  - apply Go; [exact Hg | apply N.ltb_lt in Hg1; exact Hg1 | apply near_refl].
  - destruct (mode m); [apply Go; auto using near_refl|]. cbn [revery]. intros r Hr. destruct r as [| |k|]; cbn [revery].
    + apply Go; auto using near_refl.
    + apply Go; [exact Hg | exact Hc|]. left. apply delete_less. apply Hr. reflexivity.
    + apply Go; [exact Hg | exact Hc|]. eapply near_trans; [apply near_skip | apply near_report].
    + split; [exact Hc | apply near_refl].
  - destruct (ws m) as [|x w] eqn:E; [apply inline_near; auto|]. destruct (N.eqb (tt x) t); [|apply inline_near; auto].
    apply Seq; [|intros; apply Go; assumption]. split; [exact Hc|]. left. eapply match_less. exact E.
  - destruct (ws m) as [|x w] eqn:E; [apply inline_near; auto|]. destruct (eval cd (tt x)); [|apply inline_near; auto].
    apply Seq; [|intros; apply Go; assumption]. split; [exact Hc|]. left. eapply match_less. exact E.
  - apply Seq; [|intros; apply Go; assumption]. destruct (code_grds r) as (K1 & _ & K2).
    eapply revery_bind; [apply (IH _ _ _ m K1 K2) | intros o; apply catch_near; exact Hc].
  - rewrite grd1_if in Hg1. apply andb_true_iff in Hg1 as [_ Hb]. destruct (eval cd (la (ws m))); [|apply Go; auto using near_refl].
    apply Seq; [apply Go; auto using near_refl | intros; apply Go; assumption].
  - rewrite grd1_while in Hg1. apply andb_true_iff in Hg1 as [_ Hb]. destruct (eval cd (la (ws m))); [|apply Go; auto using near_refl].
    apply Seq; [apply Go; auto using near_refl | intros; apply Go; assumption].
  - rewrite grd1_do in Hg1. apply andb_true_iff in Hg1 as [_ Hb].
    apply Seq; [apply Go; auto using near_refl|]. intros c v H1 H2. destruct (eval cd (la (ws v))); apply Go; assumption.
  - rewrite grd1_switch in Hg1. destruct (pick_case (la (ws m)) bs) as [b|] eqn:P; [|split; [exact Hc | apply near_refl]].
    apply pick_case_In in P as (i & ts & P). pose proof (forallb_nth _ _ _ _ Hg1 P) as Hb. cbn beta in Hb. apply andb_true_iff in Hb as [_ Hb].
    apply Seq; [apply Go; auto using near_refl | intros; apply Go; assumption].
  - rewrite grd1_predict in Hg1. cbn [revery]. intros [[|j]|] _ _; [apply Go; auto using near_refl | | split; [exact Hc | apply near_refl]].
    destruct (nth_error bs j) as [b|] eqn:P; [|apply Go; auto using near_refl].
    pose proof (forallb_nth _ _ _ _ Hg1 P) as Hb. cbn beta in Hb. apply andb_true_iff in Hb as [_ Hb].
    apply Seq; [apply Go; auto using near_refl | intros; apply Go; assumption].
  - rewrite grd1_whilep in Hg1. apply andb_true_iff in Hg1 as [Hb Ht]. apply andb_true_iff in Hb as [_ Hb].
    cbn [revery]. intros [[|[|[|i]]]|] _ _; try (apply Go; auto using near_refl); try (split; [exact Hc | apply near_refl]).
    + apply Seq; [apply Go; auto using near_refl|]. intros c v H1 H2. apply Seq; [apply Go; assumption | intros; apply Go; assumption].
    + apply Seq; [apply Go; auto using near_refl | intros; apply Go; assumption].
  - rewrite grd1_dop in Hg1. apply andb_true_iff in Hg1 as [Hb Ht]. apply andb_true_iff in Hb as [_ Hb].
    apply Seq; [apply Go; auto using near_refl|]. intros c v H1 H2. apply Seq; [apply Go; assumption|]. intros c2 u H3 H4.
    cbn [revery]. intros [[|[|[|i]]]|] _ _; try (apply Go; assumption); split; assumption.
Qed.

(** ** Where the next token fits, a run goes forward *)
Lemma firstk_seqs l t : In t (first (seqs l)) <-> In t (firstk l []).
Proof.
  induction l as [|g l IH]; [reflexivity|]. destruct l as [|h l].
  - rewrite firstk_cons. cbn [seqs firstk]. split; [auto | intros [H|[_ []]]; exact H].
  - change (seqs (g :: h :: l)) with (Seq g (seqs (h :: l))). rewrite firstk_cons, first_seq. destruct (nullable g).
    + rewrite union_In. split; [intros [H|H]; [left; exact H | right; split; [reflexivity | apply IH; exact H]] | intros [H|[_ H]]; [left; exact H | right; apply IH; exact H]].
    + split; [auto | intros [H|[[=] _]]; exact H].
Qed.

Lemma nullable_seqs l : nullable (seqs l) = forallb nullable l.
Proof.
  induction l as [|g l IH]; [reflexivity|]. destruct l as [|h l]; [cbn [seqs forallb]; rewrite andb_true_r; reflexivity|].
  change (seqs (g :: h :: l)) with (Seq g (seqs (h :: l))). rewrite nullable_seq, IH. reflexivity.
Qed.

Lemma firstk_app a b t : In t (firstk (a ++ b) []) -> In t (firstk a []) \/ forallb nullable a = true /\ In t (firstk b []).
Proof.
  induction a as [|g a IH]; intros H; [right; auto|]. cbn [app] in H. apply firstk_cons in H. destruct H as [H|[H1 H2]].
  - left. apply firstk_cons. left. exact H.
  - apply IH in H2 as [H2|[H2 H3]].
    + left. apply firstk_cons. right. auto.
    + right. cbn [forallb]. rewrite H1, H2. auto.
Qed.

Lemma fits_normk k o : fits (normk k) o -> fits k o.
Proof.
  revert o. induction k as [|g k IH]; intros o H; [exact H|]. unfold normk in *. cbn [flat_map] in H. apply fits_norm in H.
  destruct o as [t|]; cbn [fits] in *.
  - apply firstk_cons. apply firstk_cons in H as [H|[H1 H2]]; [auto | right; split; [exact H1 | apply (IH (Some t)); exact H2]].
  - cbn [forallb] in *. apply andb_true_iff in H as [H1 H2]. rewrite H1. apply (IH None). exact H2.
Qed.

(** What a prediction tells about the next token. *)
Lemma predicted own d ks w j : decides own d = true -> all2 is_res (eps_targets (alternatives d)) (map normk ks) = true ->
  sensible d w (Some (S j)) -> exists k, nth_error ks j = Some k /\ (In (la w) (firstk k []) \/ forallb nullable k = true).
Proof.
  intros Hd Ha Hs. apply andb_true_iff in Hd as [He _]. destruct (Hs (S j) eq_refl) as (t & Et & Hn). rewrite (alternative_nth _ _ He) in Et.
  apply all2_nth in Ha as [HL Hn']. rewrite map_length in HL.
  destruct (nth_error ks j) as [k|] eqn:Ek.
  2: { apply nth_error_None in Ek. assert (nth_error (eps_targets (alternatives d)) j <> None) as Hx by congruence. apply nth_error_Some in Hx. lia. }
  exists k. split; [reflexivity|].
  assert (Er : GenShape.res t = Some (normk k)). { apply is_res_spec. apply (Hn' j); [exact Et|]. rewrite nth_error_map, Ek. reflexivity. }
  destruct Hn as [Hn|Hn]; pose proof (next_fits _ _ _ Hn _ [] Er ltac:(constructor)) as F; cbn [concat] in F; rewrite app_nil_r in F; apply fits_normk in F; auto.
Qed.

Record fit (cs : list stmt) (t : ttype) : Prop := mkFit {
  fit_in : In t (firstk (gxl cs) []);
  fit_null : forallb nullable (gxl cs) = false;
  fit_eof : t <> T_EOF }.

Lemma guard_fit b t : guard b = true -> In t (first (gx b)) -> fit b t.
Proof.
  unfold guard. intros H Ht. apply andb_true_iff in H as [H _]. apply andb_true_iff in H as [H1 H2]. apply negb_true_iff in H1, H2. split.
  - apply firstk_seqs. exact Ht.
  - rewrite <- nullable_seqs. exact H1.
  - intros ->. apply memb_In in Ht. congruence.
Qed.

Lemma guard_goks b : guard b = true -> goks b = true.
Proof. unfold guard. intros H. apply andb_true_iff in H. apply H. Qed.

Lemma guard_null b : guard b = true -> forallb nullable (gxl b) = false.
Proof. unfold guard. intros H. apply andb_true_iff in H as [H _]. apply andb_true_iff in H as [H _]. apply negb_true_iff in H. rewrite <- nullable_seqs. exact H. Qed.

(** A predicted body can begin with the next token. *)
Lemma guard_predicted b k t : guard b = true -> In t (firstk (gxl b ++ k) []) \/ forallb nullable (gxl b ++ k) = true -> fit b t.
Proof.
  intros H Hf. apply guard_fit; [exact H|]. apply firstk_seqs. pose proof (guard_null _ H) as N0. destruct Hf as [Hf|Hf].
  - apply firstk_app in Hf as [Hf|[Hf _]]; [exact Hf | congruence].
  - rewrite forallb_app, N0 in Hf. discriminate.
Qed.

Lemma first_calls : forallb (fun r => subset (look [] first_table r) (firstk (gxl (code r)) []) && (nullable (Nt r) || negb (forallb nullable (gxl (code r))))) all_rules = true.
Proof. vm_compute. reflexivity. Qed.

Lemma call_fit r t : In t (first (Nt r)) -> nullable (Nt r) = false -> t <> T_EOF -> fit (code r) t.
Proof.
  intros H1 H2 H3. assert (H : subset (look [] first_table r) (firstk (gxl (code r)) []) && (nullable (Nt r) || negb (forallb nullable (gxl (code r)))) = true)
    by (revert r H1 H2; intros r _ _; revert r; apply all_rules_forall; exact first_calls).
  apply andb_true_iff in H as [Ha Hb]. rewrite H2 in Hb. cbn [orb] in Hb. apply negb_true_iff in Hb. split; [|exact Hb | exact H3].
  eapply subset_In; [exact Ha | exact H1].
Qed.

Lemma no_firstk t k : (forall g, In g k -> ~ In t (first g)) -> ~ In t (firstk k []).
Proof.
  induction k as [|g k IH]; intros H Hi; [exact Hi|]. apply firstk_cons in Hi as [Hi|[_ Hi]]; [apply (H g); [left; reflexivity | exact Hi]|].
  apply IH; [intros g' Hg; apply H; right; exact Hg | exact Hi].
Qed.

(** The first statement can be left out. *)
Lemma fit_skip s l t : fit (s :: l) t -> (forall g, In g (gx1 s) -> ~ In t (first g)) -> fit l t.
Proof.
  intros [H1 H2 H3] Hs. rewrite gxl_cons in H1, H2. apply firstk_app in H1 as [H1|[N1 H1]].
  - exfalso. apply (no_firstk _ _ Hs H1).
  - rewrite forallb_app, N1 in H2. split; assumption.
Qed.

(** The rest can begin with the next token, if this is predicted. *)
Lemma fit_exit s l k t : fit (s :: l) t -> nul s = true -> In t (firstk (gxl l ++ k) []) \/ forallb nullable (gxl l ++ k) = true -> fit l t.
Proof.
  intros [H1 H2 H3] Hn Hk. rewrite gxl_cons, forallb_app in H2. unfold nul in Hn. rewrite Hn in H2. cbn [andb] in H2. split; [|exact H2 | exact H3].
  destruct Hk as [Hk|Hk]; [apply firstk_app in Hk as [Hk|[Hk _]]; [exact Hk | congruence]|]. rewrite forallb_app, H2 in Hk. discriminate.
Qed.

Lemma fit_nul s l t : fit (s :: l) t -> nul s = false -> In t (firstk (gx1 s) []).
Proof. intros [H1 _ _] Hn. rewrite gxl_cons in H1. apply firstk_app in H1 as [H1|[N1 _]]; [exact H1|]. unfold nul in Hn. congruence. Qed.

Lemma pick_label t bs b : pick_case t bs = Some b -> exists ts, In (ts, b) bs /\ In t ts.
Proof.
  induction bs as [|[ts c] bs IH]; cbn [pick_case]; [discriminate|]. destruct (memb t ts) eqn:E.
  - intros [= <-]. exists ts. split; [left; reflexivity | apply memb_In; exact E].
  - intros H. destruct (IH H) as (ts' & H1 & H2). exists ts'. split; [right; exact H1 | exact H2].
Qed.

Definition gained (m : mem) (o : routcome) : Prop :=
  match o with RDone _ c m' => ok_state c /\ phi m' < phi m | RRaise c m' => ok_state c /\ near m' m | RFuel => True end.

Lemma treeless_gained m : treeless (gained m). Proof. intros f g c m'. auto. Qed.

Lemma gained_near m m' o : ws m' = ws m -> phi m' = phi m -> gained m' o -> gained m o.
Proof.
  intros Hw Hp. destruct o as [f c v|c v|]; cbn [gained]; [intros [H1 H2]; split; [exact H1 | lia] | | auto].
  intros [H1 H2]. split; [exact H1|]. eapply near_trans; [exact H2 | right; auto].
Qed.

Lemma nearby_gained m m' o : phi m' < phi m -> nearby m' o -> gained m o.
Proof.
  intros H. destruct o as [f c v|c v|]; cbn [nearby gained]; [intros [H1 H2]; split; [exact H1 | eapply near_lt; eassumption] | | auto].
  intros [H1 H2]. split; [exact H1|]. left. eapply near_lt; eassumption.
Qed.

(** A call of a rule function that can begin with the next token. *)
Lemma catch_gained r cur m o : ok_state cur -> la (ws m) <> T_EOF -> gained m o -> revery (gained m) (catch r cur o).
Proof.
  intros Hc He. destruct o as [f c v|c v|]; cbn [catch revery gained]; [intros [_ H]; auto | | auto].
  intros [H1 H2] i. split; [exact Hc|]. destruct (recover_near c i (report v) H1) as [N1 N2]. rewrite ws_report in N2.
  pose proof (near_report v) as NR. destruct H2 as [H2|[H2 H3]].
  - eapply near_lt; [eapply near_trans; [exact N1 | exact NR] | exact H2].
  - rewrite H2 in N2. specialize (N2 He). apply near_le in NR. lia.
Qed.

Lemma rrun_gained n : forall own cs oc k cur st m, chk own cs oc k = true -> grds cs = true -> goks cs = true -> ok_state cur ->
  fit cs (la (ws m)) -> revery (gained m) (rrun n cs cur st m).
Proof.
  induction n as [|n IH]; intros own cs oc k cur st m Hc0 Hg0 Ho0 Hq Hf; [exact I|]. cbn [rrun].
  destruct cs as [|s cs]; [exfalso; pose proof (fit_null _ _ Hf) as E; discriminate E|].
  assert (Hc := Hc0). rewrite chk_cons in Hc. apply andb_true_iff in Hc as [Hc1 Hc].
  assert (Hg := Hg0). rewrite grds_cons in Hg. apply andb_true_iff in Hg as [Hg1 Hg]. apply andb_true_iff in Hg1 as [_ Hg1].
  assert (Ho := Ho0). rewrite goks_cons in Ho. apply andb_true_iff in Ho as [Ho1 Ho].
  (* after progress *)
  assert (Past : forall cs0 c v, grds cs0 = true -> ok_state c -> phi v < phi m -> revery (gained m) (rrun n cs0 c st v)).
  { intros cs0 c v H1 H2 H3. eapply revery_mono; [|apply (rrun_near n cs0 c st v H1 H2)]. intros o. apply nearby_gained. exact H3. }
  (* without progress *)
  assert (Stay : forall c v, nul s = true -> fit cs (la (ws m)) -> ok_state c -> near v m -> revery (gained m) (rrun n cs c st v)).
  { intros c v H0 H1 H2 [H3|[H3 H4]]; [apply Past; assumption|]. rewrite H0 in Ho.
    eapply revery_mono; [|apply (IH own cs _ k c st v Hc Hg Ho H2)]; [intros o; apply gained_near; assumption | rewrite H3; exact H1]. }
  assert (Seq : forall p kk, revery (gained m) p -> (forall c v, ok_state c -> phi v < phi m -> revery (gained m) (kk c v)) -> revery (gained m) (rthen p kk)).
  { intros p kk H1 H2. eapply then_treeless; [apply treeless_gained | exact H1 | | auto | auto]. intros f c v [Ha Hb]. apply H2; assumption. }
  assert (Body : forall b kb kk, chk own b None kb = true -> grds b = true -> guard b = true -> fit b (la (ws m)) ->
     (forall c v, ok_state c -> phi v < phi m -> revery (gained m) (kk c v)) -> revery (gained m) (rthen (rrun n b cur st m) kk)).
  { intros b kb kk H1 H2 H3 H4 H5. apply Seq; [|exact H5]. apply (IH own b None kb cur st m H1 H2 (guard_goks _ H3) Hq H4). }
  destruct s as [q| |t|cd|r|cd b|cd b|cd b|bs|d bs|d b t|d b t].
  - apply Stay; [reflexivity | | apply N.ltb_lt in Hg1; exact Hg1 | apply near_refl]. eapply fit_skip; [exact Hf | intros g []].
  - assert (Hf' : fit cs (la (ws m))) by (eapply fit_skip; [exact Hf | intros g []]).
    destruct (mode m); [apply Stay; auto using near_refl|]. cbn [revery]. intros r Hr. destruct r as [| |i|]; cbn [revery].
    + apply Stay; auto using near_refl.
    + apply Past; [exact Hg | exact Hq|]. apply delete_less. apply Hr. reflexivity.
    + apply Stay; [reflexivity | exact Hf' | exact Hq|]. eapply near_trans; [apply near_skip | apply near_report].
    + split; [exact Hq | apply near_refl].
  - pose proof (fit_nul _ _ _ Hf eq_refl) as Ht. cbn [gx1 Tok firstk] in Ht. destruct Ht as [Ht|[]].
    pose proof (fit_eof _ _ Hf) as He. destruct (ws m) as [|x w] eqn:E; [exfalso; apply He; reflexivity|]. cbn [la] in *. subst t. rewrite N.eqb_refl.
    apply Seq; [|intros; apply Past; assumption]. split; [exact Hq|]. eapply match_less. exact E.
  - pose proof (fit_nul _ _ _ Hf eq_refl) as Ht. cbn [gx1 firstk] in Ht.
    pose proof (fit_eof _ _ Hf) as He. destruct (ws m) as [|x w] eqn:E; [exfalso; apply He; reflexivity|]. cbn [la] in *.
    cbn [chk1] in Hc1. rewrite (eval_spec _ _ Hc1). replace (memb (tt x) (cond_set cd)) with true by (symmetry; apply memb_In; exact Ht).
    apply Seq; [|intros; apply Past; assumption]. split; [exact Hq|]. eapply match_less. exact E.
  - cbn [gok1] in Ho1. apply negb_true_iff in Ho1. assert (Hn : nul (SCall r) = false) by (unfold nul; cbn [gx1 forallb]; rewrite Ho1; reflexivity).
    pose proof (fit_nul _ _ _ Hf Hn) as Ht. cbn [gx1] in Ht. apply firstk_cons in Ht as [Ht|[_ []]].
    pose proof (fit_eof _ _ Hf) as He. apply Seq; [|intros; apply Past; assumption]. destruct (code_grds r) as (K1 & K2 & K3).
    eapply revery_bind; [apply (IH r (code r) None [] (enter_state r) (cur :: st) m (code_chk r) K1 K2 K3 (call_fit r _ Ht Ho1 He))|].
    intros o. apply catch_gained; assumption.
  - rewrite chk1_if in Hc1. rewrite grd1_if in Hg1. bools. rewrite (eval_spec cd (la (ws m)) ltac:(assumption)).
    destruct (memb (la (ws m)) (cond_set cd)) eqn:E.
    + apply memb_In in E. eapply Body; [eassumption | assumption | assumption | | intros; apply Past; assumption]. apply guard_fit; [assumption|]. eapply subset_In; eassumption.
    + apply Stay; [| |exact Hq | apply near_refl].
      * unfold nul. rewrite gx1_if. unfold Opt, nullable. cbn [forallb nullable_t]. rewrite orb_true_r. reflexivity.
      * eapply fit_skip; [exact Hf|]. rewrite gx1_if. intros g [<-|[]] Hi. unfold Opt, first in Hi. cbn [first_t] in Hi. apply union_In in Hi as [Hi|[]].
        assert (memb (la (ws m)) (cond_set cd) = true) by (apply memb_In; eapply subset_In; [|exact Hi]; eassumption). congruence.
  - rewrite chk1_while in Hc1. rewrite grd1_while in Hg1. bools. rewrite (eval_spec cd (la (ws m)) ltac:(assumption)).
    destruct (memb (la (ws m)) (cond_set cd)) eqn:E.
    + apply memb_In in E. eapply Body; [eassumption | assumption | assumption | | intros; apply Past; assumption]. apply guard_fit; [assumption|]. eapply subset_In; eassumption.
    + apply Stay; [reflexivity | |exact Hq | apply near_refl].
      eapply fit_skip; [exact Hf|]. rewrite gx1_while. intros g [<-|[]] Hi.
      assert (memb (la (ws m)) (cond_set cd) = true) by (apply memb_In; eapply subset_In; [|exact Hi]; eassumption). congruence.
  - rewrite chk1_do in Hc1. rewrite grd1_do in Hg1. bools. match goal with H : guard b = true |- _ => rename H into Hb end.
    eapply Body; [eassumption | assumption | assumption | |].
    + apply guard_fit; [exact Hb|]. pose proof (guard_null _ Hb) as Nb. rewrite <- nullable_seqs in Nb. change (seqs (gxl b)) with (gx b) in Nb.
      assert (Hn : nul (SDoLa cd b) = false). { unfold nul. rewrite gx1_do. cbn [forallb]. unfold Plus. rewrite nullable_seq, Nb. reflexivity. }
      pose proof (fit_nul _ _ _ Hf Hn) as Ht. rewrite gx1_do in Ht. apply firstk_cons in Ht as [Ht|[_ []]]. unfold Plus in Ht. rewrite first_seq, Nb in Ht. exact Ht.
    + intros c v H1' H2'. destruct (eval cd (la (ws v))); apply Past; assumption.
  - rewrite chk1_switch in Hc1. rewrite grd1_switch in Hg1. destruct (pick_case (la (ws m)) bs) as [b|] eqn:P; [|split; [exact Hq | apply near_refl]].
    pose proof P as P'. apply pick_case_In in P as (i & ts & P). apply pick_label in P' as (ts' & Hin & Hla).
    apply andb_true_iff in Hc1 as [Hc1 _]. apply andb_true_iff in Hc1 as [_ Hc1].
    rewrite forallb_forall in Hc1, Hg1. specialize (Hc1 _ Hin). specialize (Hg1 _ Hin). cbn [fst snd] in *. bools.
    eapply Body; [eassumption | assumption | assumption | | intros; apply Past; assumption]. apply guard_fit; [assumption|]. eapply subset_In; eassumption.
  - rewrite chk1_predict in Hc1. rewrite grd1_predict in Hg1. apply andb_true_iff in Hc1 as [Hc1 Ha]. apply andb_true_iff in Hc1 as [Hc1 Hd]. apply andb_true_iff in Hc1 as [_ Hcb].
    cbn [revery]. intros o Hr Hs. destruct o as [[|j]|]; [exfalso; destruct Hr as [Hr _]; specialize (Hr 0 eq_refl); lia | | split; [exact Hq | apply near_refl]].
    destruct (predicted _ _ _ _ _ Hd Ha Hs) as (kj & Ej & Hj).
    destruct (nth_error bs j) as [b|] eqn:Eb.
    + pose proof (forallb_nth _ _ _ _ Hg1 Eb) as Hb. pose proof (forallb_nth _ _ _ _ Hcb Eb) as Hcb'. cbn beta in Hb, Hcb'. apply andb_true_iff in Hb as [Hb1 Hb2].
      eapply Body; [exact Hcb' | exact Hb2 | exact Hb1 | | intros; apply Past; assumption].
      rewrite nth_error_app1 in Ej by (rewrite map_length; apply nth_error_Some; congruence). rewrite nth_error_map, Eb in Ej. injection Ej as <-.
      eapply guard_predicted; eassumption.
    + rewrite nth_error_app2 in Ej by (rewrite map_length; apply nth_error_None; exact Eb). rewrite map_length in Ej.
      destruct (Nat.eqb (length bs) (length (alternatives d))) eqn:El; [destruct (j - length bs); discriminate|].
      assert (kj = gxl cs ++ k) as -> by (destruct (j - length bs) as [|[|]]; cbn in Ej; congruence).
      assert (Hn : nul (SPredict d bs) = true). { unfold nul. rewrite gx1_predict, El. unfold Opt, nullable. cbn [forallb nullable_t]. rewrite orb_true_r. reflexivity. }
      apply Stay; [exact Hn | eapply fit_exit; eassumption | exact Hq | apply near_refl].
  - rewrite chk1_whilep in Hc1. rewrite grd1_whilep in Hg1. apply andb_true_iff in Hc1 as [Hc1 Ha]. bools. match goal with H : guard b = true |- _ => rename H into Hb end.
    cbn [revery]. intros o Hr Hs. destruct o as [[|j]|]; [exfalso; destruct Hr as [Hr _]; specialize (Hr 0 eq_refl); lia | | split; [exact Hq | apply near_refl]].
    destruct (predicted own d _ _ _ ltac:(assumption) Ha Hs) as (kj & Ej & Hj). destruct j as [|[|j]].
    + cbn [nth_error] in Ej. injection Ej as <-. eapply Body; [eassumption | assumption | assumption | eapply guard_predicted; eassumption|].
      intros c v H1' H2'. eapply then_treeless; [apply treeless_gained | apply (rrun_near n t c st v); assumption | | | auto].
      * intros f c2 u [H3' H4']. apply Past; [assumption | assumption | eapply near_lt; eassumption].
      * intros c2 u [H3' H4']. split; [assumption | left; eapply near_lt; eassumption].
    + cbn [nth_error] in Ej. injection Ej as <-. apply Stay; [reflexivity | eapply fit_exit; [exact Hf | reflexivity | exact Hj] | exact Hq | apply near_refl].
    + destruct j; discriminate.
  - rewrite chk1_dop in Hc1. rewrite grd1_dop in Hg1. apply andb_true_iff in Hc1 as [Hc1 Ha]. bools. match goal with H : guard b = true |- _ => rename H into Hb end.
    eapply Body; [eassumption | assumption | assumption | |].
    + apply guard_fit; [exact Hb|]. pose proof (guard_null _ Hb) as Nb. rewrite <- nullable_seqs in Nb. change (seqs (gxl b)) with (gx b) in Nb.
      assert (Hn : nul (SDoPredict d b t) = false). { unfold nul. rewrite gx1_dop. cbn [forallb]. unfold Plus. rewrite nullable_seq, Nb. reflexivity. }
      pose proof (fit_nul _ _ _ Hf Hn) as Ht. rewrite gx1_dop in Ht. apply firstk_cons in Ht as [Ht|[_ []]]. unfold Plus in Ht. rewrite first_seq, Nb in Ht. exact Ht.
    + intros c v H1' H2'. eapply then_treeless; [apply treeless_gained | apply (rrun_near n t c st v); assumption | | | auto].
      * intros f c2 u [H3' H4']. assert (phi u < phi m) by (eapply near_lt; eassumption).
        cbn [revery]. intros [[|[|[|i]]]|] _ _; try (apply Past; assumption); (split; [assumption | left; assumption]).
      * intros c2 u [H3' H4']. split; [assumption | left; eapply near_lt; eassumption].
Qed.

(** ** A run ends *)
Definition rends (o : routcome) : Prop := o <> RFuel.

Lemma treeless_rends : treeless rends. Proof. intros f g c m H. discriminate. Qed.

Lemma lks_pos l : 1 <= lks l. Proof. destruct l; [apply le_n | rewrite lks_cons; lia]. Qed.

Lemma catch_ends r cur o : rends o -> revery rends (catch r cur o).
Proof. destruct o as [f c v|c v|]; cbn [catch revery]; intros H; [discriminate | intros i; discriminate | exact H]. Qed.

Lemma ends_seq (Q : routcome -> Prop) p kk : revery Q p -> revery rends p -> (forall f c v, Q (RDone f c v) -> revery rends (kk c v)) -> revery rends (rthen p kk).
Proof.
  intros H1 H2 H3. eapply then_treeless; [exact treeless_rends | apply revery_and; [exact H1 | exact H2] | | |].
  - intros f c v [H _]. exact (H3 f c v H).
  - intros c v _. discriminate.
  - intros [_ H]. exact H.
Qed.

Lemma lk1_predict d bs : lk1 lost_table (SPredict d bs) = fold_right (fun x m => Nat.max (rks x) m) 0 bs. Proof. reflexivity. Qed.
Lemma lk1_switch bs : lk1 lost_table (SSwitchLa bs) = fold_right (fun x m => Nat.max (rks (snd x)) m) 0 bs. Proof. reflexivity. Qed.
Lemma lk1_do c b : lk1 lost_table (SDoLa c b) = Nat.max (lks b) (S (rks b)). Proof. reflexivity. Qed.
Lemma lk1_dop d b t : lk1 lost_table (SDoPredict d b t) = Nat.max (lks b) (Nat.max (lks t) (S (rks b))). Proof. reflexivity. Qed.

Lemma rrun_ends n : forall own cs oc k cur st m, chk own cs oc k = true -> grds cs = true -> ok_state cur ->
  (S (phi m) * BC + lks cs <= n \/ goks cs = true /\ fit cs (la (ws m)) /\ S (phi m) * BC + rks cs <= n) ->
  revery rends (rrun n cs cur st m).
Proof.
  induction n as [|n IH]; intros own cs oc k cur st m Hc0 Hg0 Hq Hn; [pose proof (lks_pos cs); pose proof (rks_pos cs); exfalso; lia|]. cbn [rrun].
  destruct cs as [|s cs]; [discriminate|].
  assert (Hc := Hc0). rewrite chk_cons in Hc. apply andb_true_iff in Hc as [Hc1 Hc].
  assert (Hg := Hg0). rewrite grds_cons in Hg. apply andb_true_iff in Hg as [Hg1 Hg]. apply andb_true_iff in Hg1 as [Hbc Hg1]. apply Nat.leb_le in Hbc.
  assert (Base : S (phi m) * BC <= n) by (rewrite lks_cons, rks_cons in Hn; lia).
  assert (Bcs : lks cs <= BC) by (rewrite lks_cons in Hbc; lia).
  (* after progress *)
  assert (Less : forall v, phi v < phi m -> S (phi v) * BC + BC <= n).
  { intros v H. assert (S (S (phi v)) * BC <= S (phi m) * BC) by (apply Nat.mul_le_mono_r; lia). cbn [Nat.mul] in *. lia. }
  assert (Past : forall cs0 oc0 k0 c v, chk own cs0 oc0 k0 = true -> grds cs0 = true -> lks cs0 <= BC -> ok_state c -> phi v < phi m -> revery rends (rrun n cs0 c st v)).
  { intros cs0 oc0 k0 c v H1 H2 H3 H4 H5. apply (IH own cs0 oc0 k0 c st v H1 H2 H4). left. specialize (Less v H5). lia. }
  (* without progress *)
  assert (Stay : forall c v, (goks (s :: cs) = true -> fit (s :: cs) (la (ws m)) -> nul s = true /\ fit cs (la (ws m))) -> ok_state c -> near v m -> revery rends (rrun n cs c st v)).
  { intros c v H0 H2 H3. destruct H3 as [H3|[H3 H4]]; [eapply Past; eassumption|]. apply (IH own cs _ k c st v Hc Hg H2).
    rewrite H3, H4. destruct Hn as [Hn|(Ho & Hf & Hn)].
    - left. rewrite lks_cons in Hn. lia.
    - right. destruct (H0 Ho Hf) as [N1 F1]. rewrite goks_cons, N1 in Ho. apply andb_true_iff in Ho as [_ Ho]. rewrite rks_cons, N1 in Hn. split; [exact Ho|]. split; [exact F1 | lia]. }
  (* the rest, after any part without progress, from a place where the next token need not fit *)
  assert (Lost : forall c v, S (phi m) * BC + lks (s :: cs) <= S n -> ok_state c -> near v m -> revery rends (rrun n cs c st v)).
  { intros c v H0 H2 H3. destruct H3 as [H3|[H3 H4]]; [eapply Past; eassumption|]. apply (IH own cs _ k c st v Hc Hg H2).
    rewrite H4. left. rewrite lks_cons in H0. lia. }
  (* a body that the next token can begin *)
  assert (Body : forall b kb kk, chk own b None kb = true -> grds b = true -> guard b = true -> fit b (la (ws m)) -> rks b <= rk1 code_rank_table s -> rks b <= lk1 lost_table s ->
     (forall c v, ok_state c -> phi v < phi m -> revery rends (kk c v)) -> revery rends (rthen (rrun n b cur st m) kk)).
  { intros b kb kk H1 H2 H3 H4 H5 H5' H6. eapply ends_seq; [apply (rrun_gained n own b None kb cur st m H1 H2 (guard_goks _ H3) Hq H4) | |].
    - apply (IH own b None kb cur st m H1 H2 Hq). right. split; [apply guard_goks; exact H3|]. split; [exact H4|].
      rewrite lks_cons, rks_cons in Hn. lia.
    - intros f c v [Ha Hb]. apply H6; assumption. }
  assert (Grd : forall b, grds b = true -> lks b <= BC).
  { intros [|s0 b] Hb; [unfold BC; cbn; lia|]. rewrite grds_cons in Hb. bools. match goal with H : Nat.leb _ _ = true |- _ => apply Nat.leb_le in H; exact H end. }
  destruct s as [q| |t|cd|r|cd b|cd b|cd b|bs|d bs|d b t|d b t].
  - apply Stay; [|apply N.ltb_lt in Hg1; exact Hg1 | apply near_refl]. intros _ Hf. split; [reflexivity|]. eapply fit_skip; [exact Hf | intros g []].
  - assert (Sk : goks (SSync :: cs) = true -> fit (SSync :: cs) (la (ws m)) -> nul SSync = true /\ fit cs (la (ws m))).
    { intros _ Hf. split; [reflexivity|]. eapply fit_skip; [exact Hf | intros g []]. }
    destruct (mode m); [apply Stay; auto using near_refl|]. cbn [revery]. intros r Hr. destruct r as [| |i|]; cbn [revery].
    + apply Stay; auto using near_refl.
    + eapply Past; [exact Hc | exact Hg | exact Bcs | exact Hq|]. apply delete_less. apply Hr. reflexivity.
    + apply Stay; [exact Sk | exact Hq|]. eapply near_trans; [apply near_skip | apply near_report].
    + discriminate.
  - assert (Tk : forall x w, ws m = x :: w -> revery rends (rthen (REnd (RDone [Leaf x] cur (matched (put m w)))) (fun c v => rrun n cs c st v))).
    { intros x w E. eapply (ends_seq (fun o => o = RDone [Leaf x] cur (matched (put m w)))); [reflexivity | discriminate|]. intros f c v [= -> -> ->].
      eapply Past; [exact Hc | exact Hg | exact Bcs | exact Hq | eapply match_less; exact E]. }
    destruct Hn as [Hn|(Ho & Hf & Hn)].
    + assert (In0 : revery rends (inline cur m (fun m' => rrun n cs cur st m'))).
      { unfold inline. cbn [revery]. intros [| |] Hi; cbn [revery]; [| |discriminate]; apply Lost; try exact Hn; try exact Hq; [|apply near_report].
        eapply near_trans; [apply near_eat|]. left. apply delete_less. apply Hi. reflexivity. }
      destruct (ws m) as [|x w] eqn:E; [exact In0|]. destruct (N.eqb (tt x) t); [|exact In0]. apply Tk. reflexivity.
    + pose proof (fit_nul _ _ _ Hf eq_refl) as Ht. cbn [gx1 Tok firstk] in Ht. destruct Ht as [Ht|[]].
      pose proof (fit_eof _ _ Hf) as He. destruct (ws m) as [|x w] eqn:E; [exfalso; apply He; reflexivity|]. cbn [la] in *. subst t. rewrite N.eqb_refl.
      apply Tk. reflexivity.
  - assert (Tk : forall x w, ws m = x :: w -> revery rends (rthen (REnd (RDone [Leaf x] cur (matched (put m w)))) (fun c v => rrun n cs c st v))).
    { intros x w E. eapply (ends_seq (fun o => o = RDone [Leaf x] cur (matched (put m w)))); [reflexivity | discriminate|]. intros f c v [= -> -> ->].
      eapply Past; [exact Hc | exact Hg | exact Bcs | exact Hq | eapply match_less; exact E]. }
    destruct Hn as [Hn|(Ho & Hf & Hn)].
    + assert (In0 : revery rends (inline cur m (fun m' => rrun n cs cur st m'))).
      { unfold inline. cbn [revery]. intros [| |] Hi; cbn [revery]; [| |discriminate]; apply Lost; try exact Hn; try exact Hq; [|apply near_report].
        eapply near_trans; [apply near_eat|]. left. apply delete_less. apply Hi. reflexivity. }
      destruct (ws m) as [|x w] eqn:E; [exact In0|]. destruct (eval cd (tt x)); [|exact In0]. apply Tk. reflexivity.
    + pose proof (fit_nul _ _ _ Hf eq_refl) as Ht. cbn [gx1 firstk] in Ht.
      pose proof (fit_eof _ _ Hf) as He. destruct (ws m) as [|x w] eqn:E; [exfalso; apply He; reflexivity|]. cbn [la] in *.
      cbn [chk1] in Hc1. rewrite (eval_spec _ _ Hc1). replace (memb (tt x) (cond_set cd)) with true by (symmetry; apply memb_In; exact Ht).
      apply Tk. reflexivity.
  - cbn [grd1] in Hg1. bools. repeat match goal with H : Nat.leb _ _ = true |- _ => apply Nat.leb_le in H end.
    destruct (code_grds r) as (K1 & K2 & K3). destruct Hn as [Hn|(Ho & Hf & Hn)].
    + eapply (ends_seq (nearby m)).
      * eapply revery_bind; [apply (rrun_near n _ _ _ m K1 K3) | intros o; apply catch_near; exact Hq].
      * eapply revery_bind; [|apply catch_ends]. apply (IH r (code r) None [] (enter_state r) (cur :: st) m (code_chk r) K1 K3). left.
        rewrite lks_cons in Hn. cbn [lk1] in Hn. lia.
      * intros f c v [H3 H4]. apply Lost; assumption.
    + pose proof Ho as Ho'. rewrite goks_cons in Ho'. apply andb_true_iff in Ho' as [Ho1 _]. cbn [gok1] in Ho1. apply negb_true_iff in Ho1.
      assert (Hnn : nul (SCall r) = false) by (unfold nul; cbn [gx1 forallb]; rewrite Ho1; reflexivity).
      pose proof (fit_nul _ _ _ Hf Hnn) as Ht. cbn [gx1] in Ht. apply firstk_cons in Ht as [Ht|[_ []]].
      pose proof (fit_eof _ _ Hf) as He. pose proof (call_fit r _ Ht Ho1 He) as Hcf.
      eapply (ends_seq (gained m)).
      * eapply revery_bind; [apply (rrun_gained n r (code r) None [] (enter_state r) (cur :: st) m (code_chk r) K1 K2 K3 Hcf) | intros o; apply catch_gained; assumption].
      * eapply revery_bind; [|apply catch_ends]. apply (IH r (code r) None [] (enter_state r) (cur :: st) m (code_chk r) K1 K3). right.
        split; [exact K2|]. split; [exact Hcf|]. rewrite rks_cons in Hn. cbn [rk1] in Hn. lia.
      * intros f c v [H3 H4]. eapply Past; [exact Hc | exact Hg | exact Bcs | exact H3 | exact H4].
  - rewrite chk1_if in Hc1. rewrite grd1_if in Hg1. bools. rewrite (eval_spec cd (la (ws m)) ltac:(assumption)).
    destruct (memb (la (ws m)) (cond_set cd)) eqn:E.
    + apply memb_In in E. eapply Body; [eassumption | assumption | assumption | | apply le_n | apply le_n | intros; eapply Past; eassumption].
      apply guard_fit; [assumption|]. eapply subset_In; eassumption.
    + apply Stay; [|exact Hq | apply near_refl]. intros _ Hf. split.
      * unfold nul. rewrite gx1_if. unfold Opt, nullable. cbn [forallb nullable_t]. rewrite orb_true_r. reflexivity.
      * eapply fit_skip; [exact Hf|]. rewrite gx1_if. intros g [<-|[]] Hi. unfold Opt, first in Hi. cbn [first_t] in Hi. apply union_In in Hi as [Hi|[]].
        assert (memb (la (ws m)) (cond_set cd) = true) by (apply memb_In; eapply subset_In; [|exact Hi]; eassumption). congruence.
  - rewrite chk1_while in Hc1. rewrite grd1_while in Hg1. bools. rewrite (eval_spec cd (la (ws m)) ltac:(assumption)).
    destruct (memb (la (ws m)) (cond_set cd)) eqn:E.
    + apply memb_In in E. eapply Body; [eassumption | assumption | assumption | | apply le_n | apply le_n | intros; eapply Past; eassumption].
      apply guard_fit; [assumption|]. eapply subset_In; eassumption.
    + apply Stay; [|exact Hq | apply near_refl]. intros _ Hf. split; [reflexivity|].
      eapply fit_skip; [exact Hf|]. rewrite gx1_while. intros g [<-|[]] Hi.
      assert (memb (la (ws m)) (cond_set cd) = true) by (apply memb_In; eapply subset_In; [|exact Hi]; eassumption). congruence.
  - assert (Hc1' := Hc1). rewrite chk1_do in Hc1. rewrite grd1_do in Hg1. bools. match goal with H : guard b = true |- _ => rename H into Hb end.
    match goal with H : cond_ok cd = true |- _ => rename H into Hok end. match goal with H : subset (cond_set cd) _ = true |- _ => rename H into Hsub end.
    assert (Nb := guard_null _ Hb). rewrite <- nullable_seqs in Nb. change (seqs (gxl b)) with (gx b) in Nb.
    assert (Hnn : nul (SDoLa cd b) = false). { unfold nul. rewrite gx1_do. cbn [forallb]. unfold Plus. rewrite nullable_seq, Nb. reflexivity. }
    destruct Hn as [Hn|(Ho & Hf & Hn)].
    + eapply (ends_seq (nearby m)); [eapply rrun_near; assumption | |].
      * eapply IH; [eassumption | assumption | exact Hq|]. left. rewrite lks_cons, lk1_do in Hn. lia.
      * intros f c v [Z3 Z4]. rewrite (eval_spec cd (la (ws v)) Hok). destruct (memb (la (ws v)) (cond_set cd)) eqn:E; [|apply Lost; assumption].
        destruct Z4 as [Z4|[Z4 Z5]]; [eapply Past; eassumption|]. apply memb_In in E. apply (IH own _ _ _ c st v Hc0 Hg0 Z3). right.
        assert (Hfb : fit b (la (ws v))) by (apply guard_fit; [exact Hb | eapply subset_In; eassumption]). split; [|split].
        -- rewrite goks_cons, Hnn, andb_true_r. exact (guard_goks _ Hb).
        -- split; [|rewrite gxl_cons, gx1_do; cbn [app forallb]; unfold Plus; rewrite nullable_seq, Nb; reflexivity | apply (fit_eof _ _ Hfb)].
           rewrite gxl_cons, gx1_do. apply firstk_cons. left. unfold Plus. rewrite first_seq, Nb. eapply subset_In; eassumption.
        -- rewrite Z5, rks_cons, Hnn, rk1_do. rewrite lks_cons, lk1_do in Hn. lia.
    + eapply Body; [eassumption | assumption | assumption | | apply le_n | rewrite lk1_do; lia |].
      * apply guard_fit; [exact Hb|]. pose proof (fit_nul _ _ _ Hf Hnn) as Ht. rewrite gx1_do in Ht. apply firstk_cons in Ht as [Ht|[_ []]].
        unfold Plus in Ht. rewrite first_seq, Nb in Ht. exact Ht.
      * intros c v H1' H2'. destruct (eval cd (la (ws v))); eapply Past; eassumption.
  - rewrite chk1_switch in Hc1. rewrite grd1_switch in Hg1. destruct (pick_case (la (ws m)) bs) as [b|] eqn:P; [|discriminate].
    apply pick_label in P as (ts' & Hin & Hla).
    apply andb_true_iff in Hc1 as [Hc1 _]. apply andb_true_iff in Hc1 as [_ Hc1].
    rewrite forallb_forall in Hc1, Hg1. specialize (Hc1 _ Hin). specialize (Hg1 _ Hin). cbn [fst snd] in *. bools.
    apply In_nth_error in Hin as [i Hin]. pose proof (fold_max_nth (fun x => rks (snd x)) bs i _ Hin) as Hm. cbn [snd] in Hm.
    eapply Body; [eassumption | assumption | assumption | | rewrite rk1_switch; exact Hm | rewrite lk1_switch; exact Hm | intros; eapply Past; eassumption].
    apply guard_fit; [assumption|]. eapply subset_In; eassumption.
  - rewrite chk1_predict in Hc1. rewrite grd1_predict in Hg1. apply andb_true_iff in Hc1 as [Hc1 Ha]. apply andb_true_iff in Hc1 as [Hc1 Hd]. apply andb_true_iff in Hc1 as [_ Hcb].
    cbn [revery]. intros o Hr Hs. destruct o as [[|j]|]; [exfalso; destruct Hr as [Hr _]; specialize (Hr 0 eq_refl); lia | | discriminate].
    destruct (predicted _ _ _ _ _ Hd Ha Hs) as (kj & Ej & Hj).
    destruct (nth_error bs j) as [b|] eqn:Eb.
    + pose proof (forallb_nth _ _ _ _ Hg1 Eb) as Hb. pose proof (forallb_nth _ _ _ _ Hcb Eb) as Hcb'. cbn beta in Hb, Hcb'. apply andb_true_iff in Hb as [Hb1 Hb2].
      pose proof (fold_max_nth rks bs j _ Eb) as Hm.
      eapply Body; [exact Hcb' | exact Hb2 | exact Hb1 | | rewrite rk1_predict; exact Hm | rewrite lk1_predict; exact Hm | intros; eapply Past; eassumption].
      rewrite nth_error_app1 in Ej by (rewrite map_length; apply nth_error_Some; congruence). rewrite nth_error_map, Eb in Ej. injection Ej as <-.
      eapply guard_predicted; eassumption.
    + rewrite nth_error_app2 in Ej by (rewrite map_length; apply nth_error_None; exact Eb). rewrite map_length in Ej.
      destruct (Nat.eqb (length bs) (length (alternatives d))) eqn:El; [destruct (j - length bs); discriminate|].
      assert (kj = gxl cs ++ k) as -> by (destruct (j - length bs) as [|[|]]; cbn in Ej; congruence).
      assert (Hnn : nul (SPredict d bs) = true). { unfold nul. rewrite gx1_predict, El. unfold Opt, nullable. cbn [forallb nullable_t]. rewrite orb_true_r. reflexivity. }
      apply Stay; [|exact Hq | apply near_refl]. intros _ Hf. split; [exact Hnn | eapply fit_exit; eassumption].
  - assert (Hc1' := Hc1). rewrite chk1_whilep in Hc1. rewrite grd1_whilep in Hg1. apply andb_true_iff in Hc1 as [Hc1 Ha]. bools. match goal with H : guard b = true |- _ => rename H into Hb end.
    cbn [revery]. intros o Hr Hs. destruct o as [[|j]|]; [exfalso; destruct Hr as [Hr _]; specialize (Hr 0 eq_refl); lia | | discriminate].
    destruct (predicted own d _ _ _ ltac:(assumption) Ha Hs) as (kj & Ej & Hj). destruct j as [|[|j]].
    + cbn [nth_error] in Ej. injection Ej as <-. eapply Body; [eassumption | assumption | assumption | eapply guard_predicted; eassumption | apply le_n | apply le_n |].
      intros c v H1' H2'. eapply (ends_seq (nearby v)); [apply (rrun_near n t c st v); assumption | |].
      * eapply Past; [eassumption | eassumption | apply Grd; assumption | assumption | assumption].
      * intros f c2 u [H3' H4']. eapply Past; [exact Hc0 | exact Hg0 | exact Hbc | assumption | eapply near_lt; eassumption].
    + cbn [nth_error] in Ej. injection Ej as <-. apply Stay; [|exact Hq | apply near_refl]. intros _ Hf. split; [reflexivity|]. eapply fit_exit; [exact Hf | reflexivity | exact Hj].
    + destruct j; discriminate.
  - assert (Hc1' := Hc1). rewrite chk1_dop in Hc1. rewrite grd1_dop in Hg1. apply andb_true_iff in Hc1 as [Hc1 Ha]. bools. match goal with H : guard b = true |- _ => rename H into Hb end.
    match goal with H : decides own d = true |- _ => rename H into Hd end.
    assert (Nb := guard_null _ Hb). rewrite <- nullable_seqs in Nb. change (seqs (gxl b)) with (gx b) in Nb.
    assert (Hnn : nul (SDoPredict d b t) = false). { unfold nul. rewrite gx1_dop. cbn [forallb]. unfold Plus. rewrite nullable_seq, Nb. reflexivity. }
    destruct Hn as [Hn|(Ho & Hf & Hn)].
    + eapply (ends_seq (nearby m)); [eapply rrun_near; assumption | |].
      * eapply IH; [eassumption | assumption | exact Hq|]. left. rewrite lks_cons, lk1_dop in Hn. lia.
      * intros f c v [Z3 Z4]. eapply (ends_seq (nearby m)).
        -- eapply revery_mono; [intros o; apply (nearby_trans m v o Z4)|]. eapply rrun_near; assumption.
        -- destruct Z4 as [Z4|[Z4 Z5]]; [eapply Past; [eassumption | assumption | apply Grd; assumption | assumption | assumption]|].
           eapply IH; [eassumption | assumption | exact Z3|]. left. rewrite Z5. rewrite lks_cons, lk1_dop in Hn. lia.
        -- intros f2 c2 u [Z5 Z6]. cbn [revery]. intros o Hr Hs. destruct o as [[|[|[|i]]]|]; try discriminate; try (apply Lost; assumption).
           destruct (predicted own d _ _ _ Hd Ha Hs) as (kj & Ej & Hj). cbn [nth_error] in Ej. injection Ej as <-.
           pose proof (guard_predicted _ _ _ Hb Hj) as Hfb.
           destruct Z6 as [Z6|[Z6 Z7]]; [eapply Past; eassumption|]. apply (IH own _ _ _ c2 st u Hc0 Hg0 Z5). right. split; [|split].
           ++ rewrite goks_cons, Hnn, andb_true_r. exact (guard_goks _ Hb).
           ++ split; [|rewrite gxl_cons, gx1_dop; cbn [app forallb]; unfold Plus; rewrite nullable_seq, Nb; reflexivity | apply (fit_eof _ _ Hfb)].
              rewrite gxl_cons, gx1_dop. apply firstk_cons. left. unfold Plus. rewrite first_seq, Nb. apply firstk_seqs. apply (fit_in _ _ Hfb).
           ++ rewrite Z7, rks_cons, Hnn, rk1_dop. rewrite lks_cons, lk1_dop in Hn. lia.
    + eapply Body; [eassumption | assumption | assumption | | apply le_n | rewrite lk1_dop; lia |].
      * apply guard_fit; [exact Hb|]. pose proof (fit_nul _ _ _ Hf Hnn) as Ht. rewrite gx1_dop in Ht. apply firstk_cons in Ht as [Ht|[_ []]].
        unfold Plus in Ht. rewrite first_seq, Nb in Ht. exact Ht.
      * intros c v H1' H2'. eapply (ends_seq (nearby v)); [apply (rrun_near n t c st v); assumption | |].
        -- eapply Past; [eassumption | eassumption | apply Grd; assumption | assumption | assumption].
        -- intros f c2 u [H3' H4']. assert (phi u < phi m) by (eapply near_lt; eassumption).
           cbn [revery]. intros [[|[|[|i]]]|] _ _; try discriminate; eapply Past; eassumption.
Qed.
