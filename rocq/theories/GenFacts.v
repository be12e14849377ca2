(** The generated rule functions do what Spec.v says of the grammar. *)
From Coq Require Import List NArith ZArith Bool Arith Lia FMapPositive.
From Verif Require Import Lexer Grammar Parser Spec ParserFacts Static Cfws First GenSyntax GenAtn GenCode GenRun GenShape GenNet GenCheck.
Import ListNotations.

(** ** Conditions *)
Lemma go_type_inj a b : go_type a = go_type b -> a = b.
Proof.
  unfold go_type. destruct (N.eqb a T_EOF) eqn:A; destruct (N.eqb b T_EOF) eqn:C; intros H.
  - apply N.eqb_eq in A, C. congruence.
  - exfalso. lia.
  - exfalso. lia.
  - lia.
Qed.

Lemma high_bits x : Z.land x (-32) = 0%Z <-> (0 <= x < 32)%Z.
Proof.
  change (-32)%Z with (Z.lnot (Z.ones 5)). rewrite <- Z.ldiff_land, Z.ldiff_ones_r by lia.
  rewrite Z.shiftl_mul_pow2, Z.shiftr_div_pow2 by lia. change (2 ^ 5)%Z with 32%Z. split.
  - intros H. assert (x / 32 = 0)%Z by lia. pose proof (Z.div_mod x 32 ltac:(lia)). pose proof (Z.mod_pos_bound x 32 ltac:(lia)). lia.
  - intros H. rewrite Z.div_small by lia. reflexivity.
Qed.

Lemma one_bit x m : (0 <= x)%Z -> Z.eqb (Z.land (Z.shiftl 1 x) m) 0 = negb (Z.testbit m x).
Proof.
  intros Hx. destruct (Z.testbit m x) eqn:T; cbn [negb].
  - apply Z.eqb_neq. intros E. assert (Z.testbit (Z.land (Z.shiftl 1 x) m) x = true) as Q.
    { rewrite Z.land_spec, T, andb_true_r, Z.shiftl_spec by lia. rewrite Z.sub_diag. reflexivity. }
    rewrite E in Q. rewrite Z.bits_0 in Q. discriminate.
  - apply Z.eqb_eq. apply Z.bits_inj'. intros i Hi. rewrite Z.bits_0, Z.land_spec, Z.shiftl_spec by lia.
    destruct (Z.eq_dec i x) as [->|Hne]; [rewrite T; apply andb_false_r|].
    destruct (Z.ltb_spec i x).
    + rewrite Z.testbit_neg_r by lia. reflexivity.
    + change 1%Z with (2 ^ 0)%Z. rewrite Z.pow2_bits_false by lia. reflexivity.
Qed.

Lemma mask_bit off ts x : (0 <= x)%Z -> forallb (fun t => N.leb off t && N.ltb t (off + 32) && negb (N.eqb t T_EOF)) ts = true ->
  Z.testbit (mask off ts) x = existsb (fun t => Z.eqb (Z.of_N t - Z.of_N off) x) ts.
Proof.
  intros Hx. induction ts as [|t ts IH]; intros H.
  - cbn. apply Z.bits_0.
  - cbn [forallb] in H. apply andb_true_iff in H. destruct H as [H1 H2]. apply andb_true_iff in H1. destruct H1 as [H1 _].
    apply andb_true_iff in H1. destruct H1 as [H0 H1]. apply N.leb_le in H0. apply N.ltb_lt in H1.
    unfold mask in *. cbn [fold_right existsb]. rewrite Z.lor_spec, IH by exact H2. f_equal.
    rewrite Z.shiftl_spec by lia. destruct (Z.eqb_spec (Z.of_N t - Z.of_N off) x) as [<-|Hne].
    + rewrite Z.sub_diag. reflexivity.
    + destruct (Z.ltb_spec x (Z.of_N t - Z.of_N off)).
      * apply Z.testbit_neg_r. lia.
      * change 1%Z with (2 ^ 0)%Z. apply Z.pow2_bits_false. lia.
Qed.

Lemma eval_spec c t : cond_ok c = true -> eval c t = memb t (cond_set c).
Proof.
  unfold eval, cond_ok, cond_set, memb. induction c as [|x c IH]; [reflexivity|]. cbn [forallb existsb flat_map]. intros H.
  apply andb_true_iff in H. destruct H as [H1 H2]. rewrite existsb_app, IH by exact H2. f_equal. clear IH H2.
  destruct x as [u|off ts]; cbn [eval1].
  - cbn [existsb]. rewrite orb_false_r. destruct (N.eqb_spec t u) as [->|Hne].
    + apply Z.eqb_refl.
    + apply Z.eqb_neq. intros E. apply Hne. apply go_type_inj. exact E.
  - destruct (Z.eqb_spec (Z.land (go_type t - Z.of_N off) (-32)) 0) as [E|E].
    + apply high_bits in E. rewrite one_bit by lia. rewrite negb_involutive, mask_bit by (try exact H1; lia). cbn [andb].
      clear - H1 E. induction ts as [|u ts IH]; [reflexivity|]. cbn [forallb existsb] in *. apply andb_true_iff in H1. destruct H1 as [H1 H2].
      rewrite IH by exact H2. f_equal. apply andb_true_iff in H1. destruct H1 as [_ H1]. apply negb_true_iff in H1. apply N.eqb_neq in H1.
      destruct (N.eqb_spec t u) as [->|Hne].
      * apply Z.eqb_eq. unfold go_type. destruct (N.eqb_spec u T_EOF); [contradiction|]. reflexivity.
      * apply Z.eqb_neq. intros Q. apply Hne. apply go_type_inj. unfold go_type at 2. destruct (N.eqb_spec u T_EOF); [contradiction|]. lia.
    + cbn [andb]. symmetry. destruct (existsb (N.eqb t) ts) eqn:X; [|exact X]. exfalso. apply E. apply high_bits.
      apply existsb_exists in X. destruct X as (u & Hu & X). apply N.eqb_eq in X. subst u.
      rewrite forallb_forall in H1. specialize (H1 t Hu). apply andb_true_iff in H1. destruct H1 as [H1 H3]. apply andb_true_iff in H1. destruct H1 as [H1 H2].
      apply N.leb_le in H1. apply N.ltb_lt in H2. apply negb_true_iff in H3. unfold go_type. rewrite H3. lia.
Qed.

(** ** Lists of expressions *)
Inductive dl : list gexp -> list tree -> Prop :=
| dl_nil : dl [] []
| dl_cons : forall g k f1 f2, derives g f1 -> dl k f2 -> dl (g :: k) (f1 ++ f2).

Lemma dl_app a f1 : dl a f1 -> forall b f2, dl b f2 -> dl (a ++ b) (f1 ++ f2).
Proof.
  induction 1 as [|g k f1 f2 D H IH]; intros b f3 Hb; cbn [app]; [exact Hb|]. rewrite <- app_assoc. constructor; auto.
Qed.

Lemma dl_one g f : derives g f -> dl [g] f.
Proof. intros H. rewrite <- (app_nil_r f). constructor; [exact H | constructor]. Qed.

Lemma dl_seqs l f : dl l f -> derives (seqs l) f.
Proof.
  induction 1 as [|g k f1 f2 D H IH]; [constructor|]. destruct k as [|g' k].
  - inversion H; subst. rewrite app_nil_r. exact D.
  - change (seqs (g :: g' :: k)) with (Seq g (seqs (g' :: k))). constructor; assumption.
Qed.

Lemma derives_alts gs : forall i g f, nth_error gs i = Some g -> derives g f -> derives (alts gs) f.
Proof.
  induction gs as [|a gs IH]; intros [|i] g f E D; try discriminate; cbn in E.
  - injection E as <-. destruct gs; [exact D|]. apply D_altl. exact D.
  - destruct gs as [|b gs]; [destruct i; discriminate|]. apply D_altr. exact (IH i g f E D).
Qed.

Lemma same_set_In a b x : same_set a b = true -> (In x a <-> In x b).
Proof.
  unfold same_set. intros H. apply andb_true_iff in H. destruct H as [H1 H2]. split; intros Hx; eapply subset_In; eassumption.
Qed.

Lemma derives_geqv a f : derives a f -> forall b, geqv a b = true -> derives b f.
Proof.
  induction 1 as [ts x Hx | | r f D IH | a b f1 f2 D1 IH1 D2 IH2 | a b f D IH | a b f D IH | a | a f1 f2 D1 IH1 D2 IH2]; intros c E;
    destruct c; try discriminate; cbn [geqv] in E.
  - constructor. apply (same_set_In _ _ _ E); exact Hx.
  - constructor.
  - apply rule_beq_eq in E. subst. constructor. exact D.
  - apply andb_true_iff in E. destruct E. constructor; auto.
  - apply andb_true_iff in E. destruct E. apply D_altl; auto.
  - apply andb_true_iff in E. destruct E. apply D_altr; auto.
  - constructor.
  - constructor; auto.
Qed.

Lemma geqv_sym a : forall b, geqv a b = true -> geqv b a = true.
Proof.
  induction a as [ts| |r|a1 IH1 a2 IH2|a1 IH1 a2 IH2|a IH]; intros b E; destruct b; try discriminate; cbn [geqv] in *.
  - unfold same_set in *. rewrite andb_comm. exact E.
  - reflexivity.
  - apply rule_beq_eq in E. subst. apply internal_rule_dec_lb. reflexivity.
  - apply andb_true_iff in E. destruct E. rewrite IH1, IH2 by assumption. reflexivity.
  - apply andb_true_iff in E. destruct E. rewrite IH1, IH2 by assumption. reflexivity.
  - apply IH. exact E.
Qed.

Lemma lang_geqv a b w : geqv a b = true -> lang a w -> lang b w.
Proof. intros E (f & D & Y). exists f. split; [eapply derives_geqv; eassumption | exact Y]. Qed.

Lemma shape r : geqv (gx (code r)) (body r) = true.
Proof. revert r. apply all_rules_forall. exact code_shape. Qed.

Lemma sel_ext g V w f w' : sel g V w f w' -> forall W, (forall v, V v <-> W v) -> sel g W w f w'.
Proof.
  induction 1 as [ts V t w Hin | V w | r V w f w' Hs IH | a b V w f1 w1 f2 w2 Ha IHa Hb IHb | a b V w f w' Hv Hs IH | a b V w f w' Hv Hs IH
    | a V w f1 w1 f2 w2 Hv Ha IHa Hb IHb | a V w Hv]; intros W E.
  - constructor. exact Hin.
  - constructor.
  - constructor. apply IH. exact E.
  - econstructor; [apply IHa | apply IHb; exact E]. intros v. split; apply viable_ext; apply E.
  - apply S_altl; [revert Hv; apply viable_ext; apply E | apply IH; exact E].
  - apply S_altr; [intros Q; apply Hv; revert Q; apply viable_ext; apply E | apply IH; exact E].
  - assert (EE : forall v, viable (Star a) V v <-> viable (Star a) W v) by (intros v; split; apply viable_ext; apply E).
    eapply S_star1; [revert Hv; apply viable_ext; apply EE | apply IHa; exact EE | apply IHb; exact E].
  - apply S_star0. intros Q. apply Hv. revert Q. apply viable_ext. intros v. apply viable_ext. apply E.
Qed.

Lemma viable_geqv a b V w : geqv a b = true -> viable a V w -> viable b V w.
Proof. intros E (u & v & -> & L & HV). exists u, v. split; [reflexivity|]. split; [eapply lang_geqv; eassumption | exact HV]. Qed.

Lemma sel_geqv a V w f w' : sel a V w f w' -> forall b, geqv a b = true -> sel b V w f w'.
Proof.
  induction 1 as [ts V t w Hin | V w | r V w f w' Hs IH | a b V w f1 w1 f2 w2 Ha IHa Hb IHb | a b V w f w' Hv Hs IH | a b V w f w' Hv Hs IH
    | a V w f1 w1 f2 w2 Hv Ha IHa Hb IHb | a V w Hv]; intros c E; destruct c as [ts'| |r'|c1 c2|c1 c2|c]; try discriminate; cbn [geqv] in E.
  - constructor. apply (same_set_In _ _ _ E); exact Hin.
  - constructor.
  - apply rule_beq_eq in E. subst. constructor. exact Hs.
  - apply andb_true_iff in E. destruct E as [E1 E2]. econstructor; [|apply IHb; exact E2].
    eapply sel_ext; [apply IHa; exact E1|]. intros v. split; apply viable_geqv; [exact E2 | apply geqv_sym; exact E2].
  - apply andb_true_iff in E. destruct E as [E1 E2]. apply S_altl; [eapply viable_geqv; eassumption | auto].
  - apply andb_true_iff in E. destruct E as [E1 E2]. apply S_altr; [|auto]. intros Q. apply Hv. eapply viable_geqv; [apply geqv_sym; exact E1 | exact Q].
  - assert (EE : forall v, viable (Star a) V v <-> viable (Star c) V v).
    { intros v. split; apply viable_geqv; cbn [geqv]; [exact E | apply geqv_sym; exact E]. }
    eapply S_star1; [| eapply sel_ext; [apply IHa; exact E | exact EE] | apply IHb; exact E].
    eapply viable_geqv; [exact E|]. revert Hv. apply viable_ext. apply EE.
  - apply S_star0. intros Q. apply Hv. eapply viable_geqv; [apply geqv_sym; exact E|]. revert Q. apply viable_ext.
    intros v. apply viable_geqv. cbn [geqv]. apply geqv_sym. exact E.
Qed.

(** [lsel k K w f w']: reading the expressions [k] in turn, when [K] remains afterwards. *)
Inductive lsel : list gexp -> list gexp -> word -> list tree -> word -> Prop :=
| ls_nil : forall K w, lsel [] K w [] w
| ls_cons : forall g k K w f1 w1 f2 w2,
    sel g (lang_stack (k ++ K)) w f1 w1 -> lsel k K w1 f2 w2 -> lsel (g :: k) K w (f1 ++ f2) w2.

Lemma lang_stack_seqs l : forall K w, lang_stack (seqs l :: K) w <-> lang_stack (l ++ K) w.
Proof.
  induction l as [|g l IH]; intros K w; [apply lang_stack_eps|]. destruct l as [|g' l]; [reflexivity|].
  change (seqs (g :: g' :: l)) with (Seq g (seqs (g' :: l))). rewrite lang_stack_seq. apply lang_stack_cons_iff. intros v. apply IH.
Qed.

Lemma sel_seqs l : forall K w f w', sel (seqs l) (lang_stack K) w f w' -> lsel l K w f w'.
Proof.
  induction l as [|g l IH]; intros K w f w' H.
  - inversion H; subst. constructor.
  - destruct l as [|g' l].
    + cbn [seqs] in H. rewrite <- (app_nil_r f). econstructor; [exact H | constructor].
    + change (seqs (g :: g' :: l)) with (Seq g (seqs (g' :: l))) in H. inversion H; subst.
      econstructor; [|apply IH; eassumption]. eapply sel_ext; [eassumption|].
      intros v. exact (lang_stack_seqs (g' :: l) K v).
Qed.

Lemma lsel_ext k K w f w' : lsel k K w f w' -> forall K', (forall v, lang_stack K v <-> lang_stack K' v) -> lsel k K' w f w'.
Proof.
  induction 1 as [K w|g k K w f1 w1 f2 w2 Hs Hl IH]; intros K' E; [constructor|]. econstructor; [|apply IH; exact E].
  eapply sel_ext; [exact Hs|]. intros v. rewrite !lang_stack_app. split; intros (u1 & u2 & E1 & H1 & H2); exists u1, u2; (split; [exact E1|]); (split; [exact H1|]); apply E; exact H2.
Qed.

(** The first viable alternative. *)
Lemma sel_alts gs : gs <> [] -> forall V w f w', sel (alts gs) V w f w' -> viable (alts gs) V w ->
  exists i g, nth_error gs i = Some g /\ sel g V w f w' /\ viable g V w /\
    forall j g', j < i -> nth_error gs j = Some g' -> ~ viable g' V w.
Proof.
  induction gs as [|a gs IH]; intros Hne V w f w' Hs Hv; [contradiction|]. destruct gs as [|b gs].
  - exists 0, a. split; [reflexivity|]. split; [exact Hs|]. split; [exact Hv|]. intros; lia.
  - change (alts (a :: b :: gs)) with (Alt a (alts (b :: gs))) in *. inversion Hs; subst.
    + exists 0, a. split; [reflexivity|]. split; [assumption|]. split; [assumption|]. intros; lia.
    + destruct (IH ltac:(discriminate) V w f w') as (i & g & E1 & E2 & E3 & E4).
      * assumption.
      * destruct Hv as (u & v & -> & L & HV). apply lang_alt in L. destruct L as [L|L].
        -- exfalso. match goal with H : ~ viable a V _ |- _ => apply H end. exists u, v. auto.
        -- exists u, v. auto.
      * exists (S i), g. split; [exact E1|]. split; [exact E2|]. split; [exact E3|]. intros [|j] g' Hj Eg.
        -- injection Eg as <-. assumption.
        -- apply (E4 j); [lia | exact Eg].
Qed.

Lemma viable_alts gs V w : forall i g, nth_error gs i = Some g -> viable g V w -> viable (alts gs) V w.
Proof.
  intros i g E (u & v & -> & (f & D & <-) & HV). exists (yields f), v. split; [reflexivity|]. split; [|exact HV].
  exists f. split; [eapply derives_alts; eassumption | reflexivity].
Qed.

Lemma firstk_spec after ks : (forall v, lang_stack ks v -> In (la v) after) ->
  forall k w, lang_stack (k ++ ks) w -> In (la w) (firstk k after).
Proof.
  intros Ha k. induction k as [|g k IH]; intros w H; cbn [app firstk] in *; [apply Ha; exact H|].
  cbn [lang_stack] in H. destruct H as (u & v & -> & L & HV). destruct u as [|x u].
  - rewrite (lang_nullable _ L). apply union_In. right. apply IH. exact HV.
  - cbn [app la]. apply first_lang in L. destruct (nullable g); [apply union_In; left|]; exact L.
Qed.

(** ** What a run builds is a parse *)

(** Reasoning about all replies of the runtime. *)
Lemma every_mono (P Q : outcome -> Prop) : (forall o, P o -> Q o) -> forall p, every P p -> every Q p.
Proof.
  intros H. induction p as [o|d st w k IH|n t k IH]; cbn [every]; intros E; [apply H; exact E | |].
  - intros o Ho. apply IH, E, Ho.
  - intros o Ho. apply IH, E, Ho.
Qed.

Lemma every_and (P Q : outcome -> Prop) p : every P p -> every Q p -> every (fun o => P o /\ Q o) p.
Proof. induction p as [o|d st w k IH|n t k IH]; cbn [every]; intros E F; [auto | |]; intros o Ho; apply IH; auto. Qed.

Lemma every_bind (P Q : outcome -> Prop) f : forall p, every Q p -> (forall o, Q o -> every P (f o)) -> every P (bind p f).
Proof. induction p as [o|d st w k IH|n t k IH]; cbn [every bind]; intros E H; [auto | |]; intros o Ho; apply IH; auto. Qed.

Lemma every_exec rt (P : outcome -> Prop) : runtime_ok rt -> forall p, every P p -> P (exec rt p).
Proof. intros [R F]. induction p as [o|d st w k IH|n t k IH]; cbn [every exec]; intros E; auto. Qed.

Lemma every_then (P Q : outcome -> Prop) p k : every Q p ->
  (forall f c w, Q (Done f c w) -> every (fun o => P (prepend f o)) (k c w)) -> (Q Failed -> P Failed) -> (Q OutOfFuel -> P OutOfFuel) ->
  every P (and_then p k).
Proof.
  intros H1 H2 H3 H4. unfold and_then. apply (every_bind _ Q); [exact H1|]. intros [f c w| |] Ho; cbn [every]; [|auto|auto].
  apply (every_bind _ (fun o => P (prepend f o))); [apply H2; exact Ho|]. intros o Hp. exact Hp.
Qed.

Lemma prepend_nil o : prepend [] o = o.
Proof. destruct o; reflexivity. Qed.

Definition after_state (s : stmt) (cur : option N) : option N :=
  match s with SState n => Some n | SSync => cur | _ => None end.

Lemma chk_cons flw s l cur k : chk flw (s :: l) cur k = chk1 s cur (gxl l ++ k) flw && chk flw l (after_state s cur) k.
Proof. reflexivity. Qed.

Lemma chk1_if c b cur k flw : chk1 (SIfLa c b) cur k flw =
  cond_ok c && negb (nullable (gx b)) && subset (first (gx b)) (cond_set c) && disjoint (firstk k (follow flw)) (cond_set c) && chk flw b None k.
Proof. reflexivity. Qed.
Lemma chk1_while c b cur k flw : chk1 (SWhileLa c b) cur k flw =
  cond_ok c && negb (nullable (gx b)) && subset (first (gx b)) (cond_set c) && disjoint (firstk k (follow flw)) (cond_set c) && chk flw b None (Star (gx b) :: k).
Proof. reflexivity. Qed.
Lemma chk1_do c b cur k flw : chk1 (SDoLa c b) cur k flw =
  cond_ok c && negb (nullable (gx b)) && subset (first (gx b)) (cond_set c) && disjoint (firstk k (follow flw)) (cond_set c) && chk flw b None (Star (gx b) :: k).
Proof. reflexivity. Qed.
Lemma chk1_switch bs cur k flw : chk1 (SSwitchLa bs) cur k flw =
  Nat.leb 1 (length bs) && forallb (fun x => chk flw (snd x) None k) bs && cases_ok (map (fun x => firstk (gxl (snd x) ++ k) (follow flw)) bs) (map fst bs).
Proof. reflexivity. Qed.
Lemma chk1_predict d bs cur k flw : chk1 (SPredict d bs) cur k flw =
  Nat.leb 1 (length bs) && forallb (fun b => chk flw b None k) bs && decides flw d &&
  all2 is_res (eps_targets (alternatives d)) (map normk (map (fun b => gxl b ++ k) bs ++
    (if Nat.eqb (length bs) (length (alternatives d)) then [] else [k]))).
Proof. reflexivity. Qed.
Lemma chk1_whilep d b t cur k flw : chk1 (SWhilePredict d b t) cur k flw =
  negb (nullable (gx b)) && match gxl t with [] => true | _ => false end &&
  chk flw b None (gxl t ++ Star (gx b) :: k) && chk flw t None (Star (gx b) :: k) &&
  decides flw d &&
  all2 is_res (eps_targets (alternatives d)) (map normk [gxl b ++ Star (gx b) :: k; k]).
Proof. reflexivity. Qed.
Lemma chk1_dop d b t cur k flw : chk1 (SDoPredict d b t) cur k flw =
  negb (nullable (gx b)) && match gxl t with [] => true | _ => false end &&
  chk flw b None (gxl t ++ Star (gx b) :: k) && chk flw t None (Star (gx b) :: k) &&
  decides flw d &&
  all2 is_res (eps_targets (alternatives d)) (map normk [gxl b ++ Star (gx b) :: k; k]).
Proof. reflexivity. Qed.

Lemma gx1_if c b : gx1 (SIfLa c b) = [Opt (gx b)]. Proof. reflexivity. Qed.
Lemma gx1_while c b : gx1 (SWhileLa c b) = [Star (gx b)]. Proof. reflexivity. Qed.
Lemma gx1_do c b : gx1 (SDoLa c b) = [Plus (gx b)]. Proof. reflexivity. Qed.
Lemma gx1_switch bs : gx1 (SSwitchLa bs) = [alts (map (fun x => gx (snd x)) bs)]. Proof. reflexivity. Qed.
Lemma gx1_predict d bs : gx1 (SPredict d bs) =
  [if Nat.eqb (length bs) (length (alternatives d)) then alts (map gx bs) else Opt (alts (map gx bs))].
Proof. reflexivity. Qed.
Lemma gx1_whilep d b t : gx1 (SWhilePredict d b t) = [Star (gx b)]. Proof. reflexivity. Qed.
Lemma gx1_dop d b t : gx1 (SDoPredict d b t) = [Plus (gx b)]. Proof. reflexivity. Qed.
Lemma gxl_cons s l : gxl (s :: l) = gx1 s ++ gxl l. Proof. reflexivity. Qed.

Ltac bools := repeat match goal with H : _ && _ = true |- _ => apply andb_true_iff in H; destruct H end.

Lemma pick_case_In t bs b : pick_case t bs = Some b -> exists i ts, nth_error bs i = Some (ts, b).
Proof.
  induction bs as [|[ts x] bs IH]; [discriminate|]. cbn [pick_case]. destruct (memb t ts).
  - intros [= <-]. exists 0, ts. reflexivity.
  - intros H. destruct (IH H) as (i & ts' & E). exists (S i), ts'. exact E.
Qed.

Lemma forallb_nth {A} (p : A -> bool) l i x : forallb p l = true -> nth_error l i = Some x -> p x = true.
Proof. rewrite forallb_forall. intros H E. apply H. eapply nth_error_In. exact E. Qed.

(** The trees a run builds are a parse of the expressions its code stands for, of the tokens it consumed. *)
Definition built (cs : list stmt) (w : word) (o : outcome) : Prop :=
  match o with Done f _ w' => dl (gxl cs) f /\ w = yields f ++ w' | _ => True end.

Lemma run_sound n : forall flw cs oc k cur st w, chk flw cs oc k = true -> every (built cs w) (run n cs cur st w).
Proof.
  induction n as [|n IH]; intros flw cs oc k cur st w Hc; [exact I|]. cbn [run].
  destruct cs as [|s cs]; [cbn; split; [constructor | reflexivity]|].
  assert (Hc' := Hc). rewrite chk_cons in Hc. apply andb_true_iff in Hc. destruct Hc as [Hs Hc].
  assert (Rest : forall f1 g c1 w1, gx1 s = [g] -> derives g f1 -> w = yields f1 ++ w1 ->
    every (fun o => built (s :: cs) w (prepend f1 o)) (run n cs c1 st w1)).
  { intros f1 g c1 w1 Eg D Ew. eapply every_mono; [|apply (IH _ _ _ _ c1 st w1 Hc)]. intros [f2 c w'| |] H; [|exact I|exact I].
    cbn [prepend built] in *. destruct H as [D2 E2]. rewrite gxl_cons, Eg. split.
    - cbn [app]. constructor; assumption.
    - rewrite yields_app, <- app_assoc, <- E2. exact Ew. }
  assert (Skip : forall g c1, gx1 s = [g] -> derives g [] -> every (built (s :: cs) w) (run n cs c1 st w)).
  { intros g c1 Eg D. eapply every_mono; [|apply (Rest [] g c1 w Eg D eq_refl)]. intros o. cbn beta. rewrite prepend_nil. auto. }
  assert (Blk : forall b kb g c1, gx1 s = [g] -> (forall f, derives (gx b) f -> derives g f) -> chk flw b None kb = true ->
    every (built (s :: cs) w) (and_then (run n b c1 st w) (fun c v => run n cs c st v))).
  { intros b kb g c1 Eg Hg Hb. eapply every_then; [apply (IH _ _ _ _ c1 st w Hb) | | auto | auto]. intros f1 c2 w1 [D1 E1].
    apply (Rest f1 g); [exact Eg | apply Hg; apply dl_seqs; exact D1 | exact E1]. }
  assert (Tok : forall x w1 ts, gx1 s = [Cls ts] -> In (tt x) ts -> w = x :: w1 ->
     every (built (s :: cs) w) (and_then (End (Done [Leaf x] cur w1)) (fun c v => run n cs c st v))).
  { intros x w1 ts Eg Hx Ew. apply (every_then _ (fun o => o = Done [Leaf x] cur w1)); [reflexivity | | discriminate | discriminate].
    intros f c v [= -> -> ->]. eapply Rest; [exact Eg | apply D_cls; exact Hx | exact Ew]. }
  assert (Loop : forall g f1 c1 w1, gx1 s = [Star g] -> derives g f1 -> w = yields f1 ++ w1 ->
    every (fun o => built (s :: cs) w (prepend f1 o)) (run n (s :: cs) c1 st w1)).
  { intros g f1 c1 w1 Eg D Ew. eapply every_mono; [|apply (IH _ _ _ _ c1 st w1 Hc')]. intros [f2 c w'| |] H; [|exact I|exact I].
    cbn [prepend built] in *. destruct H as [D2 E2]. rewrite gxl_cons, Eg in *. cbn [app] in *. inversion D2 as [|? ? fa fb Da Db]; subst. split.
    - rewrite app_assoc. constructor; [apply D_star1; assumption | assumption].
    - rewrite (yields_app f1), <- app_assoc. reflexivity. }
  assert (Loop1 : forall g f1 c1 w1, gx1 s = [Plus g] -> derives g f1 -> w = yields f1 ++ w1 ->
    every (fun o => built (s :: cs) w (prepend f1 o)) (run n (s :: cs) c1 st w1)).
  { intros g f1 c1 w1 Eg D Ew. eapply every_mono; [|apply (IH _ _ _ _ c1 st w1 Hc')]. intros [f2 c w'| |] H; [|exact I|exact I].
    cbn [prepend built] in *. destruct H as [D2 E2]. rewrite gxl_cons, Eg in *. cbn [app] in *. inversion D2 as [|? ? fa fb Da Db]; subst. split.
    - rewrite app_assoc. constructor; [|assumption]. unfold Plus in *. inversion Da; subst. apply D_seq; [exact D|]. apply D_star1; assumption.
    - rewrite (yields_app f1), <- app_assoc. reflexivity. }
  destruct s as [m| |t|cd|r|cd b|cd b|cd b|bs|d bs|d b t|d b t].
  - exact (IH _ _ _ _ _ _ _ Hc).
  - cbn [every]. intros [|] _; [exact I|]. exact (IH _ _ _ _ _ _ _ Hc).
  - destruct w as [|x w]; [exact I|]. destruct (N.eqb (tt x) t) eqn:E; [|exact I]. apply N.eqb_eq in E.
    eapply (Tok x w [t]); [reflexivity | left; symmetry; exact E | reflexivity].
  - destruct w as [|x w]; [exact I|]. cbn [chk1] in Hs. rewrite (eval_spec _ _ Hs).
    destruct (memb (tt x) (cond_set cd)) eqn:E; [|exact I]. apply memb_In in E.
    eapply (Tok x w); [reflexivity | exact E | reflexivity].
  - eapply every_bind; [apply (IH _ _ _ _ (enter_state r) (cur :: st) w (code_chk r))|]. intros [f1 c1 w1| |] Ho; [|exact I|exact I].
    destruct Ho as [D1 E1].
    apply (every_then _ (fun o => o = Done [Node r f1] cur w1)); [reflexivity | | discriminate | discriminate]. intros f c v [= -> -> ->].
    apply (Rest [Node r f1] (Nt r)); [reflexivity | | ].
    + constructor. eapply derives_geqv; [apply dl_seqs; exact D1 | apply shape].
    + rewrite yields_node. exact E1.
  - rewrite chk1_if in Hs. bools. destruct (eval cd (la w)).
    + eapply Blk; [reflexivity | intros f Hf; apply D_altl; exact Hf | eassumption].
    + eapply Skip; [reflexivity|]. apply D_altr. constructor.
  - rewrite chk1_while in Hs. bools. destruct (eval cd (la w)).
    + match goal with H : chk _ b _ _ = true |- _ => rename H into Hb end.
      eapply every_then; [apply (IH _ _ _ _ cur st w Hb) | | auto | auto]. intros f1 c1 w1 [D1 E1].
      apply (Loop (gx b)); [reflexivity | apply dl_seqs; exact D1 | exact E1].
    + eapply Skip; [reflexivity|]. constructor.
  - rewrite chk1_do in Hs. bools. match goal with H : chk _ b _ _ = true |- _ => rename H into Hb end.
    eapply every_then; [apply (IH _ _ _ _ cur st w Hb) | | auto | auto]. intros f1 c1 w1 [D1 E1].
    apply dl_seqs in D1. destruct (eval cd (la w1)).
    + apply (Loop1 (gx b)); [reflexivity | exact D1 | exact E1].
    + eapply (Rest f1); [reflexivity | | exact E1].
      unfold Plus. rewrite <- (app_nil_r f1). apply D_seq; [exact D1 | constructor].
  - rewrite chk1_switch in Hs. apply andb_true_iff in Hs. destruct Hs as [Hb _]. apply andb_true_iff in Hb. destruct Hb as [_ Hb].
    destruct (pick_case (la w) bs) as [b|] eqn:P; [|exact I]. apply pick_case_In in P. destruct P as (i & ts & P).
    pose proof (forallb_nth _ _ _ _ Hb P) as Hb1. cbn [snd] in Hb1. eapply Blk; [reflexivity | | exact Hb1].
    intros f Hf. eapply (derives_alts _ i); [|exact Hf]. rewrite nth_error_map, P. reflexivity.
  - rewrite chk1_predict in Hs. apply andb_true_iff in Hs. destruct Hs as [Hb Ht]. apply andb_true_iff in Hb. destruct Hb as [Hb _]. apply andb_true_iff in Hb. destruct Hb as [_ Hb].
    cbn [every]. intros [i|] [P _]; [|exact I]. specialize (P i eq_refl). destruct i as [|j]; [lia|].
    destruct (nth_error bs j) as [b|] eqn:Eb.
    + pose proof (forallb_nth _ _ _ _ Hb Eb) as Hb1. cbn beta in Hb1. eapply Blk; [apply gx1_predict | | exact Hb1]. intros f1 D1.
      assert (DA : derives (alts (map gx bs)) f1) by (eapply (derives_alts _ j); [rewrite nth_error_map, Eb; reflexivity | exact D1]).
      destruct (Nat.eqb (length bs) (length (alternatives d))); [exact DA | apply D_altl; exact DA].
    + apply nth_error_None in Eb. eapply Skip; [apply gx1_predict|].
      destruct (Nat.eqb_spec (length bs) (length (alternatives d))); [lia|]. apply D_altr. constructor.
  - rewrite chk1_whilep in Hs. apply andb_true_iff in Hs. destruct Hs as [Hs Ht2]. bools.
    assert (L2 : length (alternatives d) = 2).
    { match goal with H : decides _ _ = true |- _ => apply andb_true_iff in H; destruct H as [H _]; apply all_eps_map in H; rewrite H end. rewrite map_length.
      apply all2_nth in Ht2. destruct Ht2 as [Ht2 _]. exact Ht2. }
    cbn [every]. intros [i|] [P _]; [|exact I]. specialize (P i eq_refl).
    destruct i as [|[|[|i]]]; try lia.
    + match goal with H : chk _ b _ _ = true |- _ => rename H into Hb end. match goal with H : chk _ t _ _ = true |- _ => rename H into Htt end.
      eapply every_then; [apply (IH _ _ _ _ cur st w Hb) | | auto | auto]. intros f1 c1 w1 [D1 E1].
      eapply every_then; [apply (IH _ _ _ _ c1 st w1 Htt) | | auto | auto]. intros f3 c3 w3 [D3 E4].
      destruct (gxl t); [|discriminate]. inversion D3; subst f3. cbn in E4. subst w3.
      eapply every_mono; [|apply (Loop (gx b) f1 c3 w1); [reflexivity | apply dl_seqs; exact D1 | exact E1]]. intros o. cbn beta. rewrite prepend_nil. auto.
    + eapply Skip; [reflexivity|]. constructor.
  - rewrite chk1_dop in Hs. apply andb_true_iff in Hs. destruct Hs as [Hs Ht2]. bools.
    match goal with H : chk _ b _ _ = true |- _ => rename H into Hb end. match goal with H : chk _ t _ _ = true |- _ => rename H into Htt end.
    eapply every_then; [apply (IH _ _ _ _ cur st w Hb) | | auto | auto]. intros f1 c1 w1 [D1 E1].
    eapply every_then; [apply (IH _ _ _ _ c1 st w1 Htt) | | auto | auto]. intros f3 c3 w3 [D3 E4].
    destruct (gxl t); [|discriminate]. inversion D3; subst f3. cbn in E4. subst w3. apply dl_seqs in D1.
    assert (Exit : every (fun o => built (SDoPredict d b t :: cs) w (prepend f1 (prepend [] o))) (run n cs c3 st w1)).
    { eapply every_mono; [|apply (Rest f1 (Plus (gx b)) c3 w1); [reflexivity | | exact E1]].
      - intros o. cbn beta. rewrite prepend_nil. auto.
      - unfold Plus. rewrite <- (app_nil_r f1). apply D_seq; [exact D1 | constructor]. }
    cbn [every]. intros [[|[|[|i]]]|] _; try exact I.
    + exact Exit.
    + eapply every_mono; [|apply (Loop1 (gx b) f1 c3 w1); [reflexivity | exact D1 | exact E1]]. intros o. cbn beta. rewrite prepend_nil. auto.
    + exact Exit.
Qed.

(** ** A run ends *)
Lemma rks_cons s l : rks (s :: l) = S (Nat.max (rk1 code_rank_table s) (if nul s then rks l else 0)).
Proof. reflexivity. Qed.
Lemma rk1_if c b : rk1 code_rank_table (SIfLa c b) = rks b. Proof. reflexivity. Qed.
Lemma rk1_while c b : rk1 code_rank_table (SWhileLa c b) = rks b. Proof. reflexivity. Qed.
Lemma rk1_do c b : rk1 code_rank_table (SDoLa c b) = rks b. Proof. reflexivity. Qed.
Lemma rk1_whilep d b t : rk1 code_rank_table (SWhilePredict d b t) = rks b. Proof. reflexivity. Qed.
Lemma rk1_dop d b t : rk1 code_rank_table (SDoPredict d b t) = rks b. Proof. reflexivity. Qed.
Lemma rk1_switch bs : rk1 code_rank_table (SSwitchLa bs) = fold_right (fun x m => Nat.max (rks (snd x)) m) 0 bs. Proof. reflexivity. Qed.
Lemma rk1_predict d bs : rk1 code_rank_table (SPredict d bs) = fold_right (fun x m => Nat.max (rks x) m) 0 bs. Proof. reflexivity. Qed.
Lemma shallow_cons s l : shallow (s :: l) = Nat.leb (rks (s :: l)) BC && shallow1 s && shallow l. Proof. reflexivity. Qed.
Lemma shallow1_if c b : shallow1 (SIfLa c b) = shallow b. Proof. reflexivity. Qed.
Lemma shallow1_while c b : shallow1 (SWhileLa c b) = shallow b. Proof. reflexivity. Qed.
Lemma shallow1_do c b : shallow1 (SDoLa c b) = shallow b. Proof. reflexivity. Qed.
Lemma shallow1_whilep d b t : shallow1 (SWhilePredict d b t) = shallow b && shallow t. Proof. reflexivity. Qed.
Lemma shallow1_dop d b t : shallow1 (SDoPredict d b t) = shallow b && shallow t. Proof. reflexivity. Qed.
Lemma shallow1_switch bs : shallow1 (SSwitchLa bs) = forallb (fun x => shallow (snd x)) bs. Proof. reflexivity. Qed.
Lemma shallow1_predict d bs : shallow1 (SPredict d bs) = forallb shallow bs. Proof. reflexivity. Qed.

Lemma fold_max_nth {A} (m : A -> nat) l : forall i x, nth_error l i = Some x -> m x <= fold_right (fun x a => Nat.max (m x) a) 0 l.
Proof. induction l as [|y l IH]; intros [|i] x E; try discriminate; cbn in *; [injection E as <-; lia | specialize (IH i x E); lia]. Qed.

Lemma rks_pos l : 1 <= rks l.
Proof. destruct l as [|s l]; [apply le_n | rewrite rks_cons; lia]. Qed.

Lemma shallow_rks l : shallow l = true -> rks l <= BC.
Proof.
  destruct l as [|s l]; [intros _; unfold BC; cbn; lia|]. rewrite shallow_cons. intros H. bools.
  match goal with H : Nat.leb _ _ = true |- _ => apply Nat.leb_le in H; exact H end.
Qed.

Lemma dl_nil_null k f : dl k f -> yields f = [] -> forallb nullable k = true.
Proof.
  induction 1 as [|g k f1 f2 D Hd IH]; intros E; [reflexivity|]. rewrite yields_app in E. apply app_eq_nil in E. destruct E as [E1 E2].
  cbn [forallb]. rewrite IH by exact E2. rewrite andb_true_r. eapply nullable_complete; eassumption.
Qed.

Lemma consumed g f w w' : derives g f -> w = yields f ++ w' -> nullable g = false -> length w' < length w.
Proof.
  intros D -> Hn. rewrite app_length. destruct (yields f) eqn:E; [|cbn; lia]. rewrite (nullable_complete _ _ D E) in Hn. discriminate.
Qed.

Definition ends (o : outcome) : Prop := o <> OutOfFuel.

Lemma ends_then (Q : outcome -> Prop) p k : every Q p -> every ends p ->
  (forall f c w, Q (Done f c w) -> every ends (k c w)) -> every ends (and_then p k).
Proof.
  intros H1 H2 H3. eapply every_then; [exact (every_and _ _ _ H1 H2) | | intros _; discriminate | intros [_ H]; exact H].
  intros f c w [Hq _]. eapply every_mono; [|apply (H3 f c w Hq)]. intros [f' c' w'| |] H; [discriminate | discriminate | exact H].
Qed.

Lemma ends_ret f0 c0 w0 k : every ends (k c0 w0) -> every ends (and_then (End (Done f0 c0 w0)) k).
Proof.
  intros H. apply (ends_then (fun o => o = Done f0 c0 w0)); [reflexivity | discriminate|]. intros f c w [= -> -> ->]. exact H.
Qed.

(** Enough depth for the tokens left. *)
Lemma run_total n : forall flw cs oc k cur st w, chk flw cs oc k = true -> shallow cs = true ->
  S (length w) * BC + rks cs <= n -> every ends (run n cs cur st w).
Proof.
  induction n as [|n IH]; intros flw cs oc k cur st w Hc Hsh Hn; [pose proof (rks_pos cs); lia|]. cbn [run].
  destruct cs as [|s cs]; [discriminate|]. assert (Hsh' := Hsh).
  rewrite shallow_cons in Hsh. apply andb_true_iff in Hsh. destruct Hsh as [Hsh1 Hsh2]. apply andb_true_iff in Hsh1. destruct Hsh1 as [Hsh0 Hsh1].
  assert (Hc' := Hc). rewrite chk_cons in Hc. apply andb_true_iff in Hc. destruct Hc as [Hs Hc].
  pose proof (shallow_rks _ Hsh2) as Hb2. pose proof (shallow_rks _ Hsh') as Hb1. rewrite rks_cons in Hn.
  assert (HBC : 1 <= BC) by (unfold BC; lia).
  (* the rest, after a part that consumed what its shape requires *)
  assert (Rest : forall c1 w1, (nul s = true /\ length w1 <= length w \/ length w1 < length w) -> every ends (run n cs c1 st w1)).
  { intros c1 w1 Hl. eapply (IH flw cs); [exact Hc | exact Hsh2|]. destruct Hl as [[Hnul Hl]|Hl].
    - rewrite Hnul in Hn. assert (S (length w1) * BC <= S (length w) * BC) by (apply Nat.mul_le_mono_r; lia). lia.
    - assert (S (S (length w1)) * BC <= S (length w) * BC) by (apply Nat.mul_le_mono_r; lia). cbn [Nat.mul] in *. lia. }
  assert (Again : forall c1 w1, length w1 < length w -> every ends (run n (s :: cs) c1 st w1)).
  { intros c1 w1 Hl. eapply (IH flw (s :: cs)); [exact Hc' | exact Hsh'|].
    assert (S (S (length w1)) * BC <= S (length w) * BC) by (apply Nat.mul_le_mono_r; lia). cbn [Nat.mul] in *. lia. }
  assert (Sub : forall b kb oc' st' cur' w1, chk flw b oc' kb = true -> shallow b = true ->
    rks b <= rk1 code_rank_table s -> length w1 <= length w -> every ends (run n b cur' st' w1)).
  { intros b kb oc' st' cur' w1 H1 H2 H3 H4. eapply IH; [exact H1 | exact H2|].
    assert (S (length w1) * BC <= S (length w) * BC) by (apply Nat.mul_le_mono_r; lia). lia. }
  assert (Short : forall b kb oc' st' cur' w1, chk flw b oc' kb = true -> shallow b = true ->
    length w1 < length w -> every ends (run n b cur' st' w1)).
  { intros b kb oc' st' cur' w1 H1 H2 H4. pose proof (shallow_rks _ H2). eapply IH; [exact H1 | exact H2|].
    assert (S (S (length w1)) * BC <= S (length w) * BC) by (apply Nat.mul_le_mono_r; lia). cbn [Nat.mul] in *. lia. }
  (* what [s] consumes *)
  assert (Eat : forall g f1 w1, gx1 s = [g] -> derives g f1 -> w = yields f1 ++ w1 -> nul s = true /\ length w1 <= length w \/ length w1 < length w).
  { intros g f1 w1 Eg D Ew. unfold nul. rewrite Eg. cbn [forallb]. destruct (nullable g) eqn:En.
    - left. split; [reflexivity|]. subst w. rewrite app_length. lia.
    - right. eapply consumed; eassumption. }
  assert (Blk : forall b kb g c1, gx1 s = [g] -> (forall f, derives (gx b) f -> derives g f) -> chk flw b None kb = true -> shallow b = true ->
    rks b <= rk1 code_rank_table s -> every ends (and_then (run n b c1 st w) (fun c v => run n cs c st v))).
  { intros b kb g c1 Eg Hg Hb Hsb Hk. eapply ends_then; [apply (run_sound n _ _ _ _ c1 st w Hb) | eapply Sub; eauto |].
    intros f c2 w1 [D1 E1]. apply Rest. apply (Eat g f); [exact Eg | apply Hg; apply dl_seqs; exact D1 | exact E1]. }
  destruct s as [m| |t|cd|r|cd b|cd b|cd b|bs|d bs|d b t|d b t].
  - apply Rest. left. split; [reflexivity | lia].
  - cbn [every]. intros [|] _; [discriminate|]. apply Rest. left. split; [reflexivity | lia].
  - destruct w as [|x w]; [discriminate|]. destruct (N.eqb (tt x) t); [|discriminate].
    apply ends_ret. apply Rest. right. cbn. lia.
  - destruct w as [|x w]; [discriminate|]. destruct (eval cd (tt x)); [|discriminate].
    apply ends_ret. apply Rest. right. cbn. lia.
  - cbn [shallow1] in Hsh1. apply Nat.leb_le in Hsh1. cbn [rk1] in *.
    eapply every_bind; [apply every_and; [apply (run_sound n _ _ _ _ (enter_state r) (cur :: st) w (code_chk r))|]|].
    + eapply IH; [apply code_chk | apply code_shallow|]. lia.
    + intros [f1 c1 w1| |] [Hd He]; [|discriminate | exact He]. destruct Hd as [D1 E1].
      apply ends_ret. apply Rest. apply (Eat (Nt r) [Node r f1]); [reflexivity | | rewrite yields_node; exact E1].
      constructor. eapply derives_geqv; [apply dl_seqs; exact D1 | apply shape].
  - rewrite chk1_if in Hs. rewrite shallow1_if in Hsh1. bools. rewrite rk1_if in *.
    destruct (eval cd (la w)).
    + eapply Blk; [reflexivity | intros f Hf; apply D_altl; exact Hf | eassumption | assumption | lia].
    + apply Rest. left. split; [|lia]. unfold nul. rewrite gx1_if. unfold Opt, nullable. cbn [forallb nullable_t]. rewrite orb_true_r. reflexivity.
  - rewrite chk1_while in Hs. rewrite shallow1_while in Hsh1. bools. rewrite rk1_while in *.
    match goal with H : chk _ b _ _ = true |- _ => rename H into Hb end.
    match goal with H : negb (nullable _) = true |- _ => apply negb_true_iff in H; rename H into Hnn end.
    destruct (eval cd (la w)).
    + eapply ends_then; [apply (run_sound n _ _ _ _ cur st w Hb) | eapply Sub; eauto|]. intros f1 c1 w1 [D1 E1].
      apply Again. eapply consumed; [apply dl_seqs; exact D1 | exact E1 | exact Hnn].
    + apply Rest. left. split; [reflexivity | lia].
  - rewrite chk1_do in Hs. rewrite shallow1_do in Hsh1. bools. rewrite rk1_do in *.
    match goal with H : chk _ b _ _ = true |- _ => rename H into Hb end.
    match goal with H : negb (nullable _) = true |- _ => apply negb_true_iff in H; rename H into Hnn end.
    eapply ends_then; [apply (run_sound n _ _ _ _ cur st w Hb) | eapply Sub; eauto|]. intros f1 c1 w1 [D1 E1].
    assert (length w1 < length w) by (eapply consumed; [apply dl_seqs; exact D1 | exact E1 | exact Hnn]).
    destruct (eval cd (la w1)); [apply Again; assumption | apply Rest; right; assumption].
  - rewrite chk1_switch in Hs. apply andb_true_iff in Hs. destruct Hs as [Hb _]. apply andb_true_iff in Hb. destruct Hb as [_ Hb]. rewrite shallow1_switch in Hsh1. rewrite rk1_switch in *.
    destruct (pick_case (la w) bs) as [b|] eqn:P; [|discriminate]. apply pick_case_In in P. destruct P as (i & ts & P).
    pose proof (forallb_nth _ _ _ _ Hb P) as Hb1'. pose proof (forallb_nth _ _ _ _ Hsh1 P) as Hs1. cbn [snd] in *.
    pose proof (fold_max_nth (fun x => rks (snd x)) bs i _ P) as Hm. cbn [snd] in Hm.
    eapply Blk; [apply gx1_switch | | exact Hb1' | exact Hs1 | exact Hm].
    intros f Hf. eapply (derives_alts _ i); [|exact Hf]. rewrite nth_error_map, P. reflexivity.
  - rewrite chk1_predict in Hs. apply andb_true_iff in Hs. destruct Hs as [Hb Ht]. apply andb_true_iff in Hb. destruct Hb as [Hb _]. apply andb_true_iff in Hb. destruct Hb as [_ Hb].
    rewrite shallow1_predict in Hsh1. rewrite rk1_predict in *.
    cbn [every]. intros [i|] [P _]; [|discriminate]. specialize (P i eq_refl). destruct i as [|j]; [lia|].
    destruct (nth_error bs j) as [b|] eqn:Eb.
    + pose proof (forallb_nth _ _ _ _ Hb Eb) as Hb1'. pose proof (forallb_nth _ _ _ _ Hsh1 Eb) as Hs1. cbn beta in *.
      pose proof (fold_max_nth rks bs j _ Eb) as Hm.
      eapply Blk; [apply gx1_predict | | exact Hb1' | exact Hs1 | exact Hm]. intros f1 D1.
      assert (DA : derives (alts (map gx bs)) f1) by (eapply (derives_alts _ j); [rewrite nth_error_map, Eb; reflexivity | exact D1]).
      destruct (Nat.eqb (length bs) (length (alternatives d))); [exact DA | apply D_altl; exact DA].
    + apply nth_error_None in Eb. apply Rest. eapply (Eat _ []); [apply gx1_predict | | reflexivity].
      destruct (Nat.eqb_spec (length bs) (length (alternatives d))); [lia|]. apply D_altr. constructor.
  - rewrite chk1_whilep in Hs. rewrite shallow1_whilep in Hsh1. rewrite rk1_whilep in *. apply andb_true_iff in Hs. destruct Hs as [Hs Ht2]. bools.
    assert (L2 : length (alternatives d) = 2).
    { match goal with H : decides _ _ = true |- _ => apply andb_true_iff in H; destruct H as [H _]; apply all_eps_map in H; rewrite H end. rewrite map_length.
      apply all2_nth in Ht2. destruct Ht2 as [Ht2 _]. exact Ht2. }
    match goal with H : chk _ b _ _ = true |- _ => rename H into Hb end. match goal with H : chk _ t _ _ = true |- _ => rename H into Htt end.
    match goal with H : negb (nullable _) = true |- _ => apply negb_true_iff in H; rename H into Hnn end.
    cbn [every]. intros [i|] [P _]; [|discriminate]. specialize (P i eq_refl).
    destruct i as [|[|[|i]]]; try lia.
    + eapply ends_then; [apply (run_sound n _ _ _ _ cur st w Hb) | eapply Sub; eauto|]. intros f1 c1 w1 [D1 E1].
      assert (Hl : length w1 < length w) by (eapply consumed; [apply dl_seqs; exact D1 | exact E1 | exact Hnn]).
      eapply ends_then; [apply (run_sound n _ _ _ _ c1 st w1 Htt) | eapply Short; eauto|]. intros f3 c3 w3 [D3 E4].
      apply Again. subst w1. rewrite app_length in Hl. lia.
    + apply Rest. left. split; [reflexivity | lia].
  - rewrite chk1_dop in Hs. rewrite shallow1_dop in Hsh1. rewrite rk1_dop in *. apply andb_true_iff in Hs. destruct Hs as [Hs Ht2]. bools.
    match goal with H : chk _ b _ _ = true |- _ => rename H into Hb end. match goal with H : chk _ t _ _ = true |- _ => rename H into Htt end.
    match goal with H : negb (nullable _) = true |- _ => apply negb_true_iff in H; rename H into Hnn end.
    eapply ends_then; [apply (run_sound n _ _ _ _ cur st w Hb) | eapply Sub; eauto|]. intros f1 c1 w1 [D1 E1].
    assert (Hl : length w1 < length w) by (eapply consumed; [apply dl_seqs; exact D1 | exact E1 | exact Hnn]).
    eapply ends_then; [apply (run_sound n _ _ _ _ c1 st w1 Htt) | eapply Short; eauto|]. intros f3 c3 w3 [D3 E4].
    assert (Hl3 : length w3 < length w) by (subst w1; rewrite app_length in Hl; lia).
    cbn [every]. intros [[|[|[|i]]]|] _; try discriminate; first [apply Again; exact Hl3 | apply Rest; right; exact Hl3].
Qed.


(** ** On a sentence, a run follows the specified reading *)

(** Alternative [S j] of a decision, when its transitions are silent. *)
Lemma alternative_nth d j : all_eps (alternatives d) = true -> alternative d (S j) = nth_error (eps_targets (alternatives d)) j.
Proof.
  intros H. unfold alternative. apply all_eps_map in H. rewrite H at 1. rewrite nth_error_map.
  destruct (nth_error (eps_targets (alternatives d)) j); reflexivity.
Qed.

(** The pending rule functions: [kss] remain after the states [st] return, [r] is running. *)
Record context (r : rule) (st : list N) (kss : list (list gexp)) : Prop := mkContext {
  cx_stack : stack_res (map return_state st) kss;
  cx_follow : forall v, lang_stack (concat kss) v -> In (la v) (follow r);
  cx_linked : linked (rule_no r) st }.

(** Which alternatives can finish, in terms of the grammar. *)
Lemma can_finish_iff d st w j t k kss r : context r st kss -> all_eps (alternatives d) = true ->
  nth_error (eps_targets (alternatives d)) j = Some t -> res t = Some (normk k) ->
  (can_finish d st w (S j) <-> lang_stack (k ++ concat kss) w).
Proof.
  intros Hx He Ej Et. unfold can_finish. rewrite (alternative_nth _ _ He), Ej.
  pose proof (path_iff t _ _ _ w Et (cx_stack _ _ _ Hx)) as P. rewrite lang_stack_normk in P. split.
  - intros (t' & [= <-] & H). apply P. exact H.
  - intros H. exists t. split; [reflexivity|]. apply P. exact H.
Qed.

Lemma can_finish_0 d st w : ~ can_finish d st w 0.
Proof. intros (t & E & _). discriminate. Qed.

(** The least alternative that can finish is predicted. *)
Lemma predicts d st w r kss ks : context r st kss -> decides r d = true ->
  all2 is_res (eps_targets (alternatives d)) (map normk ks) = true ->
  forall i k, nth_error ks i = Some k -> lang_stack (k ++ concat kss) w ->
  (forall j k', j < i -> nth_error ks j = Some k' -> ~ lang_stack (k' ++ concat kss) w) ->
  forall o, right d st w o -> o = Some (S i).
Proof.
  intros Hx Hd Ha i k Ei Hl Hmin o Ho. apply andb_true_iff in Hd. destruct Hd as [He Hq]. apply N.eqb_eq in Hq. apply all2_nth in Ha. destruct Ha as [HL Hn]. rewrite map_length in HL.
  assert (T : forall j k', nth_error ks j = Some k' -> exists t, nth_error (eps_targets (alternatives d)) j = Some t /\ res t = Some (normk k')).
  { intros j k' Ej. destruct (nth_error (eps_targets (alternatives d)) j) as [t|] eqn:Et.
    - exists t. split; [reflexivity|]. apply is_res_spec. apply (Hn j); [exact Et|]. rewrite nth_error_map, Ej. reflexivity.
    - apply nth_error_None in Et. assert (nth_error ks j <> None) as Q by congruence. apply nth_error_Some in Q. lia. }
  apply (proj2 Ho).
  - rewrite Hq. exact (cx_linked _ _ _ Hx).
  - destruct (T i k Ei) as (t & Et & Er). apply (can_finish_iff d st w i t k kss r); assumption.
  - intros [|j] Hj; [apply can_finish_0|]. intros Hf. destruct (nth_error ks j) as [k'|] eqn:Ej.
    + destruct (T j k' Ej) as (t & Et & Er). apply (Hmin j k'); [lia | exact Ej|]. apply (can_finish_iff d st w j t k' kss r); assumption.
    + apply nth_error_None in Ej. assert (nth_error ks i <> None) as Q by congruence. apply nth_error_Some in Q. lia.
Qed.

Lemma disjoint_spec a b x : disjoint a b = true -> In x a -> memb x b = false.
Proof. unfold disjoint. rewrite forallb_forall. intros H Hx. specialize (H x Hx). apply negb_true_iff in H. exact H. Qed.

(** The case of a switch that is taken. *)
Lemma pick_case_spec (lk : list ttype * list stmt -> list ttype) t bs : cases_ok (map lk bs) (map fst bs) = true ->
  forall i x, nth_error bs i = Some x -> In t (lk x) -> pick_case t bs = Some (snd x).
Proof.
  induction bs as [|[ts b] bs IH]; intros H [|i] x E Hx; try discriminate; cbn [map cases_ok fst] in H; bools; cbn in E.
  - injection E as <-. cbn [pick_case snd].
    match goal with Hsub : subset _ ts = true |- _ => pose proof (subset_In _ _ _ Hsub Hx) as Hi end.
    apply memb_In in Hi. rewrite Hi. reflexivity.
  - cbn [pick_case]. match goal with Hd : forallb _ (map lk bs) = true |- _ => rename Hd into Hdis end.
    assert (Hd : disjoint (lk x) ts = true).
    { rewrite forallb_forall in Hdis. apply (Hdis (lk x)). apply in_map. eapply nth_error_In. exact E. }
    rewrite (disjoint_spec _ _ _ Hd Hx). eapply IH; eassumption.
Qed.

Lemma lsel_one g k K w f w' : lsel ([g] ++ k) K w f w' ->
  exists f1 w1 f2, sel g (lang_stack (k ++ K)) w f1 w1 /\ lsel k K w1 f2 w' /\ f = f1 ++ f2.
Proof. cbn [app]. intros H. inversion H; subst. eexists _, _, _. split; [eassumption|]. split; [eassumption | reflexivity]. Qed.

(** The outcome that builds [f] and leaves [w']. *)
Definition follows (f : list tree) (w' : word) (o : outcome) : Prop := o = OutOfFuel \/ exists c, o = Done f c w'.

Lemma follows_then f1 w1 f2 w' p kk : every (follows f1 w1) p -> (forall c1, every (follows f2 w') (kk c1 w1)) ->
  every (follows (f1 ++ f2) w') (and_then p kk).
Proof.
  intros H1 H2. eapply every_then; [exact H1 | | intros [H|[c H]]; discriminate | intros _; left; reflexivity].
  intros f c w [H|[c0 H]]; [discriminate|]. injection H as -> -> ->. eapply every_mono; [|apply (H2 c0)].
  intros o [->|[c2 ->]]; [left; reflexivity | right; exists c2; reflexivity].
Qed.

Lemma run_follows n : forall cs oc kr r st kss cur w f w',
  chk r cs oc kr = true -> (forall m, oc = Some m -> cur = m) -> context r st kss ->
  lang_stack (gxl cs ++ kr ++ concat kss) w -> lsel (gxl cs) (kr ++ concat kss) w f w' ->
  every (follows f w') (run n cs cur st w).
Proof.
  induction n as [|n IH]; intros cs oc kr r st kss cur w f w' Hc Hoc Hx Hl Hs; [left; reflexivity|]. cbn [run].
  destruct cs as [|s cs]; [inversion Hs; subst; right; exists cur; reflexivity|].
  assert (Hc' := Hc). rewrite chk_cons in Hc. apply andb_true_iff in Hc. destruct Hc as [Hk Hc]. rewrite gxl_cons in Hl, Hs.
  set (ks := concat kss) in *.
  (* the rest of the statements *)
  assert (Rest : forall cur1 w1 f2, (forall m, after_state s oc = Some m -> cur1 = m) -> lang_stack (gxl cs ++ kr ++ ks) w1 ->
    lsel (gxl cs) (kr ++ ks) w1 f2 w' -> every (follows f2 w') (run n cs cur1 st w1)).
  { intros cur1 w1 f2 H1 H2 H3. exact (IH _ _ _ _ _ _ _ _ _ _ Hc H1 Hx H2 H3). }
  (* a block inside the statement *)
  assert (Block : forall b k1 w1 f1 w2, chk r b None k1 = true -> sel (gx b) (lang_stack (k1 ++ ks)) w1 f1 w2 ->
    viable (gx b) (lang_stack (k1 ++ ks)) w1 ->
    forall cur1, every (follows f1 w2) (run n b cur1 st w1)).
  { intros b k1 w1 f1 w2 H1 H2 H3 cur1. eapply IH; [exact H1 | discriminate | exact Hx | |].
    - apply (lang_stack_seqs (gxl b) (k1 ++ ks)). exact H3.
    - apply sel_seqs. exact H2. }
  (* composition of a block and the rest *)
  assert (Comp : forall p (kk : N -> word -> prog) f1 w1 f2, every (follows f1 w1) p ->
    (forall c1, every (follows f2 w') (kk c1 w1)) -> every (follows (f1 ++ f2) w') (and_then p kk)).
  { intros p kk f1 w1 f2. apply follows_then. }
  assert (First : forall k w1, lang_stack (k ++ ks) w1 -> In (la w1) (firstk k (follow r))).
  { apply firstk_spec. apply (cx_follow _ _ _ Hx). }
  assert (Again : forall cur1 w1 f2, chk r (s :: cs) oc kr = chk r (s :: cs) None kr ->
    lang_stack (gx1 s ++ gxl cs ++ kr ++ ks) w1 -> lsel (gx1 s ++ gxl cs) (kr ++ ks) w1 f2 w' ->
    every (follows f2 w') (run n (s :: cs) cur1 st w1)).
  { intros cur1 w1 f2 H1 H2 H3. rewrite H1 in Hc'. eapply (IH (s :: cs) None); [exact Hc' | discriminate | exact Hx | | exact H3].
    rewrite gxl_cons, <- app_assoc. exact H2. }
  destruct s as [m| |t|cd|rc|cd b|cd b|cd b|bs|d bs|d b t|d b t]; cbn [gx1 app] in Hl, Hs.
  - apply Rest; [|exact Hl | exact Hs]. intros m' [= <-]. reflexivity.
  - cbn [chk1] in Hk. destruct oc as [m|]; [|discriminate]. specialize (Hoc m eq_refl). subst m. apply is_res_spec in Hk.
    cbn [every]. intros sf Hsf. assert (HS : sf = false).
    { apply Hsf. pose proof (path_iff cur _ _ _ w Hk (cx_stack _ _ _ Hx)) as P. rewrite lang_stack_normk in P.
      rewrite <- app_assoc in P. apply P in Hl. destruct (path_next _ _ _ Hl [] _ eq_refl) as [Q|(x & v & -> & Q)]; [left | right]; exact Q. }
    subst sf. apply Rest; [|exact Hl | exact Hs]. intros m' [= <-]. reflexivity.
  - apply (lsel_one (Tok t) (gxl cs)) in Hs. destruct Hs as (f1 & w1 & f2 & H1 & H2 & ->). inversion H1 as [ts V x v Hin| | | | | | |]; subst.
    assert (Hv : lang_stack (gxl cs ++ kr ++ ks) w1) by exact (sel_keeps _ _ _ _ _ H1 Hl). destruct Hin as [<-|[]]. rewrite N.eqb_refl.
    eapply Comp; [cbn [every]; right; eexists; reflexivity|]. intros c1. apply Rest; [discriminate | exact Hv | exact H2].
  - apply (lsel_one (Cls (cond_set cd)) (gxl cs)) in Hs. destruct Hs as (f1 & w1 & f2 & H1 & H2 & ->). inversion H1 as [ts V x v Hin| | | | | | |]; subst.
    assert (Hv : lang_stack (gxl cs ++ kr ++ ks) w1) by exact (sel_keeps _ _ _ _ _ H1 Hl). cbn [chk1] in Hk. rewrite (eval_spec _ _ Hk).
    apply memb_In in Hin. rewrite Hin. eapply Comp; [cbn [every]; right; eexists; reflexivity|]. intros c1. apply Rest; [discriminate | exact Hv | exact H2].
  - apply (lsel_one (Nt rc) (gxl cs)) in Hs. destruct Hs as (f1 & w1 & f2 & H1 & H2 & ->).
    assert (Hv : lang_stack (gxl cs ++ kr ++ ks) w1) by exact (sel_keeps _ _ _ _ _ H1 Hl).
    inversion H1 as [ | | r0 V0 w0 f0 w0' Hb | | | | | ]; subst.
    cbn [chk1] in Hk. apply andb_true_iff in Hk. destruct Hk as [Hca Hfo]. destruct oc as [m|]; [|discriminate].
    specialize (Hoc m eq_refl). subst m. apply andb_true_iff in Hca. destruct Hca as [Hown Hca]. apply N.eqb_eq in Hown. unfold calls in Hca. destruct (edges cur) as [|[|  |sb ix fl] es] eqn:Ee; try discriminate.
    apply andb_true_iff in Hca. destruct Hca as [Hca Hrf]. apply andb_true_iff in Hca. destruct Hca as [_ Hix]. apply N.eqb_eq in Hix. apply is_res_spec in Hrf.
    assert (EK : forall v, lang_stack (gxl cs ++ kr ++ ks) v <-> lang_stack (normk (gxl cs ++ kr) ++ ks) v).
    { intros v. rewrite lang_stack_normk, <- app_assoc. reflexivity. }
    assert (Hx' : context rc (cur :: st) (normk (gxl cs ++ kr) :: kss)).
    { constructor.
      - cbn [map]. constructor; [|exact (cx_stack _ _ _ Hx)]. unfold return_state. rewrite Ee. exact Hrf.
      - intros v Hv'. cbn [concat] in Hv'. eapply subset_In; [exact Hfo|]. apply First. rewrite <- app_assoc. apply EK. exact Hv'.
      - cbn [linked]. rewrite Ee, Hown. split; [exact Hix | exact (cx_linked _ _ _ Hx)]. }
    assert (HR : every (follows f0 w1) (run n (code rc) (enter_state rc) (cur :: st) w)).
    { eapply IH; [apply code_chk | discriminate | exact Hx' | |].
      - cbn [app concat]. fold ks. apply (lang_stack_seqs (gxl (code rc))). apply (lang_stack_cons_iff _ _ (gxl cs ++ kr ++ ks)); [intros v; symmetry; apply EK|].
        cbn [lang_stack]. apply lang_stack_nt in Hl. eapply viable_geqv; [apply geqv_sym; apply shape | exact Hl].
      - cbn [app concat]. fold ks. apply sel_seqs. eapply sel_ext; [|exact EK]. eapply sel_geqv; [exact Hb | apply geqv_sym; apply shape]. }
    eapply every_bind; [exact HR|]. intros o [->|[c0 ->]]; [left; reflexivity|].
    eapply Comp; [cbn [every]; right; eexists; reflexivity|]. intros c1. apply Rest; [discriminate | exact Hv | exact H2].
  - apply (lsel_one (Opt (gx b)) (gxl cs)) in Hs. destruct Hs as (f1 & w1 & f2 & H1 & H2 & ->).
    assert (Hv : lang_stack (gxl cs ++ kr ++ ks) w1) by exact (sel_keeps _ _ _ _ _ H1 Hl).
    rewrite chk1_if in Hk. bools. match goal with H : cond_ok cd = true |- _ => rewrite (eval_spec _ _ H) end.
    match goal with H : negb (nullable _) = true |- _ => apply negb_true_iff in H; rename H into Hnn end.
    rewrite app_assoc in H1.
    inversion H1 as [ | | | | a0 b0 V0 w0 f0 w0' Hva Hsa | a0 b0 V0 w0 f0 w0' Hva Hsa | | ]; subst.
    + assert (Hin : memb (la w) (cond_set cd) = true).
      { destruct Hva as (u & v & -> & Lu & _). destruct u as [|x u]; [rewrite (lang_nullable _ Lu) in Hnn; discriminate|].
        apply first_lang in Lu. cbn [app la]. apply memb_In. eapply subset_In; eassumption. }
      rewrite Hin. eapply Comp; [eapply Block; eassumption|]. intros c1. apply Rest; [discriminate | exact Hv | exact H2].
    + inversion Hsa; subst. assert (Hin : memb (la w1) (cond_set cd) = false).
      { eapply disjoint_spec; [eassumption|]. apply First. rewrite <- app_assoc. exact Hv. }
      rewrite Hin. apply Rest; [discriminate | exact Hv | exact H2].
  - apply (lsel_one (Star (gx b)) (gxl cs)) in Hs. destruct Hs as (f1 & w1 & f2 & H1 & H2 & ->).
    assert (Hv : lang_stack (gxl cs ++ kr ++ ks) w1) by exact (sel_keeps _ _ _ _ _ H1 Hl).
    rewrite chk1_while in Hk. bools. match goal with H : cond_ok cd = true |- _ => rewrite (eval_spec _ _ H) end.
    match goal with H : negb (nullable _) = true |- _ => apply negb_true_iff in H; rename H into Hnn end.
    inversion H1 as [ | | | | | | a0 V0 w0 fa wa fb wb Hva Hsa Hsb | a0 V0 w0 Hva ]; subst.
    + assert (Hin : memb (la w) (cond_set cd) = true).
      { destruct Hva as (u & v & -> & Lu & _). destruct u as [|x u]; [rewrite (lang_nullable _ Lu) in Hnn; discriminate|].
        apply first_lang in Lu. cbn [app la]. apply memb_In. eapply subset_In; eassumption. }
      rewrite Hin. rewrite <- app_assoc. pose proof (sel_keeps _ _ _ _ _ Hsa Hva) as Hva'.
      rewrite (app_assoc (gxl cs)) in Hva, Hsa.
      eapply Comp; [eapply (Block b (Star (gx b) :: gxl cs ++ kr)); eassumption|]. intros c1.
      apply (Again c1 wa (fb ++ f2)); [reflexivity | exact Hva' |]. econstructor; eassumption.
    + assert (Hin : memb (la w1) (cond_set cd) = false).
      { eapply disjoint_spec; [eassumption|]. apply First. rewrite <- app_assoc. exact Hv. }
      rewrite Hin. apply Rest; [discriminate | exact Hv | exact H2].
  - apply (lsel_one (Plus (gx b)) (gxl cs)) in Hs. destruct Hs as (f1 & w1 & f2 & H1 & H2 & ->).
    assert (Hv : lang_stack (gxl cs ++ kr ++ ks) w1) by exact (sel_keeps _ _ _ _ _ H1 Hl).
    rewrite chk1_do in Hk. bools. match goal with H : cond_ok cd = true |- _ => rename H into Hcd end.
    match goal with H : negb (nullable _) = true |- _ => apply negb_true_iff in H; rename H into Hnn end.
    unfold Plus in H1. inversion H1 as [ | | | a0 b0 V0 w0 fa wa fb wb Hsa Hsb | | | | ]; subst.
    change (lang_stack (Seq (gx b) (Star (gx b)) :: gxl cs ++ kr ++ ks) w) in Hl. apply lang_stack_seq in Hl.
    pose proof (sel_keeps _ _ _ _ _ Hsa Hl) as Hva'.
    rewrite <- app_assoc. rewrite (app_assoc (gxl cs)) in Hsa, Hl.
    eapply Comp; [eapply (Block b (Star (gx b) :: gxl cs ++ kr)); eassumption|]. intros c1. rewrite (eval_spec _ _ Hcd).
    inversion Hsb as [ | | | | | | a0 V0 w0 fc wc fd wd Hvc Hsc Hsd | a0 V0 w0 Hvc ]; subst.
    + assert (Hin : memb (la wa) (cond_set cd) = true).
      { destruct Hvc as (u & v & -> & Lu & _). destruct u as [|x u]; [rewrite (lang_nullable _ Lu) in Hnn; discriminate|].
        apply first_lang in Lu. cbn [app la]. apply memb_In. eapply subset_In; eassumption. }
      rewrite Hin. apply Again; [reflexivity | | ].
      * apply (lang_stack_seq (gx b) (Star (gx b))). exact Hvc.
      * econstructor; [|exact H2]. eapply S_seq; eassumption.
    + assert (Hin : memb (la w1) (cond_set cd) = false).
      { eapply disjoint_spec; [eassumption|]. apply First. rewrite <- app_assoc. exact Hv. }
      rewrite Hin. apply Rest; [discriminate | exact Hv | exact H2].
  - rewrite chk1_switch in Hk. apply andb_true_iff in Hk. destruct Hk as [Hb Hcs]. apply andb_true_iff in Hb. destruct Hb as [Hne Hb].
    change (lsel ([alts (map (fun x => gx (snd x)) bs)] ++ gxl cs) (kr ++ ks) w f w') in Hs.
    change (lang_stack (alts (map (fun x => gx (snd x)) bs) :: gxl cs ++ kr ++ ks) w) in Hl.
    apply lsel_one in Hs. destruct Hs as (f1 & w1 & f2 & H1 & H2 & ->).
    assert (Hv : lang_stack (gxl cs ++ kr ++ ks) w1) by exact (sel_keeps _ _ _ _ _ H1 Hl).
    destruct bs as [|b0 bs]; [discriminate|].
    destruct (sel_alts (map (fun x => gx (snd x)) (b0 :: bs)) ltac:(discriminate) _ _ _ _ H1 Hl) as (i & g & Ei & Hsg & Hvg & _).
    rewrite nth_error_map in Ei. destruct (nth_error (b0 :: bs) i) as [x|] eqn:Ex; [|discriminate]. injection Ei as <-.
    rewrite app_assoc in Hsg, Hvg.
    assert (HP : pick_case (la w) (b0 :: bs) = Some (snd x)).
    { eapply (pick_case_spec (fun x => firstk (gxl (snd x) ++ gxl cs ++ kr) (follow r))); [exact Hcs | exact Ex|].
      apply First. rewrite <- app_assoc. apply (lang_stack_seqs (gxl (snd x))). exact Hvg. }
    rewrite HP. eapply Comp; [eapply Block; [exact (forallb_nth _ _ _ _ Hb Ex) | exact Hsg | exact Hvg]|].
    intros c1. apply Rest; [discriminate | exact Hv | exact H2].
  - rewrite chk1_predict in Hk. apply andb_true_iff in Hk. destruct Hk as [Hb Ht]. apply andb_true_iff in Hb. destruct Hb as [Hb He].
    apply andb_true_iff in Hb. destruct Hb as [Hne Hb]. apply Nat.leb_le in Hne.
    assert (GNe : map gx bs <> []) by (destruct bs; [cbn in Hne; lia | discriminate]).
    set (G := if Nat.eqb (length bs) (length (alternatives d)) then alts (map gx bs) else Opt (alts (map gx bs))) in *.
    change (lsel ([G] ++ gxl cs) (kr ++ ks) w f w') in Hs. change (lang_stack (G :: gxl cs ++ kr ++ ks) w) in Hl.
    apply lsel_one in Hs. destruct Hs as (f1 & w1 & f2 & H1 & H2 & ->).
    assert (Hv : lang_stack (gxl cs ++ kr ++ ks) w1) by exact (sel_keeps _ _ _ _ _ H1 Hl).
    assert (Nth : forall i b, nth_error bs i = Some b -> nth_error (map (fun b => gxl b ++ gxl cs ++ kr) bs ++
       (if Nat.eqb (length bs) (length (alternatives d)) then [] else [gxl cs ++ kr])) i = Some (gxl b ++ gxl cs ++ kr)).
    { intros i b E. rewrite nth_error_app1; [rewrite nth_error_map, E; reflexivity|]. rewrite map_length. apply nth_error_Some. congruence. }
    assert (Lst : forall b v, lang_stack ((gxl b ++ gxl cs ++ kr) ++ concat kss) v <-> viable (gx b) (lang_stack (gxl cs ++ kr ++ ks)) v).
    { intros b v. rewrite <- !app_assoc. fold ks. symmetry. apply (lang_stack_seqs (gxl b)). }
    (* the selected alternative is one of the blocks *)
    assert (In_block : sel (alts (map gx bs)) (lang_stack (gxl cs ++ kr ++ ks)) w f1 w1 -> viable (alts (map gx bs)) (lang_stack (gxl cs ++ kr ++ ks)) w ->
      forall o, right d st w o -> every (follows (f1 ++ f2) w')
        match o with
        | Some (S j) => match nth_error bs j with
                        | Some b => and_then (run n b cur st w) (fun c1 v => run n cs c1 st v)
                        | None => run n cs cur st w end
        | Some O => run n cs cur st w
        | None => End Failed end).
    { intros Hsa Hva o Ho. destruct (sel_alts _ GNe _ _ _ _ Hsa Hva) as (i & g & Ei & Hsg & Hvg & Hmin).
      rewrite nth_error_map in Ei. destruct (nth_error bs i) as [b|] eqn:Eb; [|discriminate]. injection Ei as <-.
      assert (HP : o = Some (S i)).
      { eapply (predicts d st w r kss _ Hx He Ht i); [apply Nth; exact Eb | apply Lst; exact Hvg| |exact Ho].
        intros j k' Hj Ek Hk'. destruct (nth_error bs j) as [b'|] eqn:Eb'.
        - rewrite (Nth _ _ Eb') in Ek. injection Ek as <-. apply Lst in Hk'. apply (Hmin j (gx b')); [exact Hj | rewrite nth_error_map, Eb'; reflexivity | exact Hk'].
        - apply nth_error_None in Eb'. assert (nth_error bs i <> None) as Q by congruence. apply nth_error_Some in Q. lia. }
      rewrite HP, Eb. rewrite app_assoc in Hsg, Hvg. eapply Comp; [eapply Block; [exact (forallb_nth _ _ _ _ Hb Eb) | exact Hsg | exact Hvg]|].
      intros c1. apply Rest; [discriminate | exact Hv | exact H2]. }
    subst G. cbn [every]. destruct (Nat.eqb (length bs) (length (alternatives d))) eqn:EL; [apply In_block; assumption|].
    inversion H1 as [ | | | | a0 b0 V0 w0 f0 w0' Hva Hsa | a0 b0 V0 w0 f0 w0' Hva Hsa | | ]; subst; [apply In_block; assumption|].
    inversion Hsa; subst.
    intros o Ho. assert (HP : o = Some (S (length bs))).
    { eapply (predicts d st w1 r kss _ Hx He Ht (length bs) (gxl cs ++ kr)); [| | |exact Ho].
      - rewrite nth_error_app2; rewrite map_length; [rewrite Nat.sub_diag; reflexivity | lia].
      - rewrite <- app_assoc. exact Hv.
      - intros j k' Hj Ek Hk'. destruct (nth_error bs j) as [b'|] eqn:Eb'.
        + rewrite (Nth _ _ Eb') in Ek. injection Ek as <-. apply Lst in Hk'. apply Hva.
          eapply (viable_alts _ _ _ j); [rewrite nth_error_map, Eb'; reflexivity | exact Hk'].
        + apply nth_error_None in Eb'. lia. }
    assert (EN : nth_error bs (length bs) = None) by (apply nth_error_None; lia).
    rewrite HP, EN. apply Rest; [discriminate | exact Hv | exact H2].
  - rewrite chk1_whilep in Hk. apply andb_true_iff in Hk. destruct Hk as [Hk Ht]. apply andb_true_iff in Hk. destruct Hk as [Hk He].
    change (lsel ([Star (gx b)] ++ gxl cs) (kr ++ ks) w f w') in Hs. change (lang_stack (Star (gx b) :: gxl cs ++ kr ++ ks) w) in Hl.
    apply lsel_one in Hs. destruct Hs as (f1 & w1 & f2 & H1 & H2 & ->).
    assert (Hv : lang_stack (gxl cs ++ kr ++ ks) w1) by exact (sel_keeps _ _ _ _ _ H1 Hl). bools.
    match goal with H : chk _ b _ _ = true |- _ => rename H into Hb end. match goal with H : chk _ t _ _ = true |- _ => rename H into Htt end.
    match goal with H : match gxl t with _ => _ end = true |- _ => destruct (gxl t) eqn:Egt; [|discriminate] end.
    assert (Lst : forall v, lang_stack ((gxl b ++ Star (gx b) :: gxl cs ++ kr) ++ concat kss) v <-> viable (gx b) (viable (Star (gx b)) (lang_stack (gxl cs ++ kr ++ ks))) v).
    { intros v. rewrite <- !app_assoc. cbn [app]. rewrite <- app_assoc. fold ks. symmetry. apply (lang_stack_seqs (gxl b) (Star (gx b) :: gxl cs ++ kr ++ ks)). }
    inversion H1 as [ | | | | | | a0 V0 w0 fa wa fb wb Hva Hsa Hsb | a0 V0 w0 Hva ]; subst.
    + cbn [every]. intros o Ho. assert (HP : o = Some 1).
      { eapply (predicts d st w r kss _ Hx He Ht 0); [reflexivity | apply Lst; exact Hva | intros; lia | exact Ho]. }
      rewrite HP, <- app_assoc. pose proof (sel_keeps _ _ _ _ _ Hsa Hva) as Hva'. rewrite (app_assoc (gxl cs)) in Hva, Hsa.
      eapply Comp; [eapply (Block b (Star (gx b) :: gxl cs ++ kr)); eassumption|]. intros c1.
      change (fb ++ f2) with ([] ++ fb ++ f2). eapply (Comp _ _ [] wa).
      * eapply (IH t None); [exact Htt | discriminate | exact Hx | |]; rewrite Egt; cbn [app]; [rewrite <- app_assoc; exact Hva' | constructor].
      * intros c2. apply Again; [reflexivity | exact Hva' |]. econstructor; eassumption.
    + cbn [every]. intros o Ho. assert (HP : o = Some 2).
      { eapply (predicts d st w1 r kss _ Hx He Ht 1); [reflexivity | rewrite <- app_assoc; exact Hv| |exact Ho].
        intros [|j] k' Hj Ek Hk'; [|lia]. injection Ek as <-. apply Lst in Hk'. exact (Hva Hk'). }
      rewrite HP. apply Rest; [discriminate | exact Hv | exact H2].
  - rewrite chk1_dop in Hk. apply andb_true_iff in Hk. destruct Hk as [Hk Ht]. apply andb_true_iff in Hk. destruct Hk as [Hk He].
    change (lsel ([Plus (gx b)] ++ gxl cs) (kr ++ ks) w f w') in Hs. change (lang_stack (Seq (gx b) (Star (gx b)) :: gxl cs ++ kr ++ ks) w) in Hl.
    apply lsel_one in Hs. destruct Hs as (f1 & w1 & f2 & H1 & H2 & ->).
    assert (Hv : lang_stack (gxl cs ++ kr ++ ks) w1) by exact (sel_keeps _ _ _ _ _ H1 Hl). bools.
    match goal with H : chk _ b _ _ = true |- _ => rename H into Hb end. match goal with H : chk _ t _ _ = true |- _ => rename H into Htt end.
    match goal with H : match gxl t with _ => _ end = true |- _ => destruct (gxl t) eqn:Egt; [|discriminate] end.
    assert (Lst : forall v, lang_stack ((gxl b ++ Star (gx b) :: gxl cs ++ kr) ++ concat kss) v <-> viable (gx b) (viable (Star (gx b)) (lang_stack (gxl cs ++ kr ++ ks))) v).
    { intros v. rewrite <- !app_assoc. cbn [app]. rewrite <- app_assoc. fold ks. symmetry. apply (lang_stack_seqs (gxl b) (Star (gx b) :: gxl cs ++ kr ++ ks)). }
    unfold Plus in H1. inversion H1 as [ | | | a0 b0 V0 w0 fa wa fb wb Hsa Hsb | | | | ]; subst.
    apply lang_stack_seq in Hl. pose proof (sel_keeps _ _ _ _ _ Hsa Hl) as Hva'. rewrite <- app_assoc. rewrite (app_assoc (gxl cs)) in Hsa, Hl.
    eapply Comp; [eapply (Block b (Star (gx b) :: gxl cs ++ kr)); eassumption|]. intros c1.
    change (fb ++ f2) with ([] ++ fb ++ f2). eapply (Comp _ _ [] wa).
    { eapply (IH t None); [exact Htt | discriminate | exact Hx | |]; rewrite Egt; cbn [app]; [rewrite <- app_assoc; exact Hva' | constructor]. }
    intros c2. inversion Hsb as [ | | | | | | a0 V0 w0 fc wc fd wd Hvc Hsc Hsd | a0 V0 w0 Hvc ]; subst.
    + cbn [every]. intros o Ho. assert (HP : o = Some 1).
      { eapply (predicts d st wa r kss _ Hx He Ht 0); [reflexivity | apply Lst; exact Hvc | intros; lia | exact Ho]. }
      rewrite HP. apply Again; [reflexivity | |].
      * apply (lang_stack_seq (gx b) (Star (gx b))). exact Hvc.
      * econstructor; [|exact H2]. eapply S_seq; eassumption.
    + cbn [every]. intros o Ho. assert (HP : o = Some 2).
      { eapply (predicts d st w1 r kss _ Hx He Ht 1); [reflexivity | rewrite <- app_assoc; exact Hv| |exact Ho].
        intros [|j] k' Hj Ek Hk'; [|lia]. injection Ek as <-. apply Lst in Hk'. exact (Hvc Hk'). }
      rewrite HP. apply Rest; [discriminate | exact Hv | exact H2].
Qed.
