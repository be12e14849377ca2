(** In a regular text no group has a stray double quote: every reading pairs the double quotes the
    way the scanner does. *)
From Coq Require Import String List NArith ZArith Bool Arith Lia.
From Verif Require Import Lexer Grammar Utf8 Strs Mime GoTime Parser Walker Api Spec ParserFacts
  WalkerFacts Static Cfws LangFacts LexFacts Utf8Facts DateSpec First AddrSpec AddrSem CharFacts ScanSpec ScanFacts ScanEnc ScanWords ScanName ScanAddr ScanBox ScanList.
Import ListNotations.
Local Open Scope N_scope.

Lemma intro_tail p x : intro (p ++ x) = false -> intro x = false.
Proof.
  induction p as [|c p IH]; [auto|]. cbn [app]. intros H. apply IH. destruct (p ++ x) as [|d y]; [reflexivity|].
  change (((c =? 61) && (d =? 63)) || intro (d :: y) = false) in H. now apply orb_false_iff in H.
Qed.

(** the angle bracket flag does not matter *)
Definition same (m m' : mode) : Prop :=
  match m, m' with
  | MN _, MN _ => True
  | MC _ n, MC _ n' => n = n'
  | MCE _ n, MCE _ n' => n = n'
  | MQ _ _ _, MQ _ _ _ => True
  | MQE _ _ _, MQE _ _ _ => True
  | ML _ _, ML _ _ => True
  | _, _ => False
  end.

Lemma same_step m m' r : same m m' -> same (fst (step m r)) (fst (step m' r)).
Proof.
  destruct m, m'; cbn [same]; intros H; try contradiction; subst; cbn [step]; repeat match goal with |- context [if ?c then _ else _] => destruct c end; cbn; auto.
  destruct n0; cbn; auto.
Qed.

Lemma same_mo x : forall m m', same m m' -> same (mo m x) (mo m' x).
Proof. induction x as [|r x IH]; intros m m' H; [exact H|]. rewrite !mo_cons. now apply IH, same_step. Qed.

Definition keeps (p : list rune) (e : list emit) (p' : list rune) : Prop :=
  (exists r, e = [EA r] /\ p' = p ++ [r]) \/ (e = [] /\ p' = p) \/ (exists x, e = [x] /\ (forall r, x <> EA r) /\ p' = []).

Lemma keeps_okruns p e p' E : keeps p e p' -> intro p = false -> okruns false p' E -> okruns false p (e ++ E).
Proof.
  intros [(r & -> & ->)|[(-> & ->)|(x & -> & N & ->)]] I H; cbn [app okruns]; auto.
  destruct x; try (split; [now left | exact H]). exfalso. now apply (N r).
Qed.

Lemma keeps_a p r : keeps p [EA r] (p ++ [r]).
Proof. left. eauto. Qed.
Lemma keeps_0 p : keeps p [] p.
Proof. right. now left. Qed.
Lemma keeps_x p x : (forall r, x <> EA r) -> keeps p [x] [].
Proof. right. right. eauto. Qed.

(** one step outside quoted strings *)
Definition outside (m : mode) : bool := match m with MQ _ _ _ | MQE _ _ _ => false | _ => true end.
Definition escaping (m : mode) : bool := match m with MCE _ _ => true | _ => false end.

Lemma outside_step m r : outside m = true -> r <> 34 -> r <> 58 ->
  let m' := fst (step m r) in let e := snd (step m r) in
  outside m' = true /\ ~ In (ES 58) e /\ (escaping m' = true -> r = 92 /\ escaping m = false) /\ (r = 92 -> escaping m = false -> escaping m' = true \/ plain_mode m' = true \/ exists a l, m' = ML a l) /\
  ((e = [] /\ plain_mode m' = false) \/ (e = [EA r] /\ plain_mode m = true) \/ (exists x, e = [x] /\ forall c, x <> EA c)).
Proof.
  intros Ho N1 N2. assert (S : forall x, x <> ES 58 -> ~ In (ES 58) [x]) by (intros x Hx [H|[]]; auto).
  destruct m as [a|a n|a n|a acc pend|a acc pend|a l]; try discriminate Ho; cbn [step].
  - destruct (ws r) eqn:W; [cbn; repeat split; auto; try discriminate; [intros [H|[]]; discriminate H | right; right; exists EG; split; [reflexivity | discriminate]]|].
    destruct (N.eqb_spec r 40) as [->|N3]; [cbn; repeat split; auto; discriminate|].
    destruct (N.eqb_spec r 34) as [->|_]; [now destruct N1|].
    destruct (N.eqb_spec r 91) as [->|N4]; [cbn; repeat split; auto; try discriminate; eauto|].
    destruct (N.eqb_spec r 60) as [->|N5]; [cbn; repeat split; auto; try discriminate; [apply S; discriminate | right; right; eexists; split; [reflexivity | discriminate]]|].
    destruct (N.eqb_spec r 62) as [->|N6]; [cbn; repeat split; auto; try discriminate; [apply S; discriminate | right; right; eexists; split; [reflexivity | discriminate]]|].
    destruct ((r =? 44) || (r =? 59)); [cbn; repeat split; auto; try discriminate; [apply S; destruct a; congruence | right; right; eexists; split; [reflexivity | destruct a; discriminate]]|].
    destruct (atext_char r); [cbn; repeat split; auto; try discriminate; apply S; discriminate|].
    cbn; repeat split; auto; try discriminate; [apply S; congruence | right; right; eexists; split; [reflexivity | discriminate]].
  - destruct (N.eqb_spec r 40) as [->|N3]; [cbn; repeat split; auto; discriminate|].
    destruct (N.eqb_spec r 41) as [->|N4]; [destruct n; cbn; repeat split; auto; try discriminate; [apply S; discriminate | right; right; eexists; split; [reflexivity | discriminate]]|].
    destruct (N.eqb_spec r 92) as [->|N5]; cbn; repeat split; auto; try discriminate; intros; contradiction.
  - cbn; repeat split; auto; discriminate.
  - destruct (N.eqb_spec r 93) as [->|N3]; cbn; repeat split; auto; try discriminate; eauto; [apply S; discriminate | right; right; eexists; split; [reflexivity | discriminate]].
Qed.

(** [m1] is where the scanner is and [m2] where it would be had it not seen a certain double quote:
    one of them is in a quoted string and the other is not.  [q] is the quoted string the scanner is
    in, so far; [p] the atom characters reported last in the other run. *)
Inductive out (q : list rune) (p : list rune) : mode -> mode -> Prop :=
| o_in : forall m1 a2 m2, outside m1 = false -> m2 = mo (MN a2) q -> outside m2 = true ->
    (match m1 with MQ _ _ _ => escaping m2 = false | _ => match m2 with MC _ _ => False | _ => True end end) ->
    (plain_mode m2 = true -> exists q0, q = q0 ++ p) -> out q p m1 m2
| o_n : forall m1 a acc pend, outside m1 = true -> escaping m1 = false -> out q p m1 (MQ a acc pend)
| o_e : forall m1 a acc pend, outside m1 = true -> escaping m1 = true \/ (exists a l, m1 = ML a l) -> out q p m1 (MQE a acc pend).

Lemma out_step q m1 m2 p r z : out q p m1 m2 -> intro p = false -> regular_from m1 q (r :: z) = true ->
  exists q' p', out q' p' (fst (step m1 r)) (fst (step m2 r)) /\ intro p' = false /\ regular_from (fst (step m1 r)) q' z = true /\ ~ In (ES 58) (snd (step m2 r)) /\ keeps p (snd (step m2 r)) p' /\
    (plain_mode m2 = true -> plain_mode (fst (step m2 r)) = true -> q' = q ++ [r]).
Proof.
  intros O I R. destruct O as [m1 a2 m2 O1 E O2 C Q|m1 a acc pend O1 C|m1 a acc pend O1 C].
  - (* in the quoted string *)
    assert (CASES : (r = 34 /\ exists a acc pend, m1 = MQ a acc pend /\ plain_mode (mo (MN false) q) = true /\ regular_from (MN a) [] z = true) \/
      (r <> 34 /\ r <> 58 /\ intro (q ++ [r]) = false /\ regular_from (fst (step m1 r)) (q ++ [r]) z = true)).
    { destruct m1; try discriminate O1; cbn [regular_from] in R.
      - destruct (N.eqb_spec r 34) as [->|N34].
        + left. apply andb_true_iff in R as [R1 R]. apply andb_true_iff in R1 as [R1 _]. split; [reflexivity|]. eauto 8.
        + right. apply andb_true_iff in R as [R1 R]. apply andb_true_iff in R1 as [R1 R2]. apply negb_true_iff, N.eqb_neq in R1. apply negb_true_iff in R2. auto.
      - right. apply andb_true_iff in R as [R1 R]. apply andb_true_iff in R1 as [R1 R2]. apply andb_true_iff in R1 as [R0 R1]. apply negb_true_iff, N.eqb_neq in R0, R1. apply negb_true_iff in R2. auto. }
    destruct CASES as [(-> & a & acc & pend & -> & R1 & R2)|(N34 & N58 & R2 & R3)].
    + assert (exists a3, m2 = MN a3) as (a3 & E3).
      { subst m2. pose proof (same_mo q (MN false) (MN a2) Logic.I) as SM. destruct (mo (MN false) q); try discriminate R1.
        destruct (mo (MN a2) q); try contradiction SM. eauto. }
      rewrite E3 in *. exists [], p. cbn. split; [now constructor|]. split; [exact I|]. split; [exact R2|]. split; [auto|]. split; [apply keeps_0|]. discriminate.
    + destruct (outside_step m2 r O2 N34 N58) as (P1 & P2 & P3 & P4 & P5).
      assert (E' : fst (step m2 r) = mo (MN a2) (q ++ [r])) by (rewrite mo_app, <- E, mo_cons; reflexivity).
      assert (O1' : outside (fst (step m1 r)) = false).
      { destruct m1; try discriminate O1; cbn [step]; [|reflexivity]. destruct (N.eqb_spec r 34); [contradiction|]. destruct (r =? 92); [reflexivity|]. now destruct (ws r). }
      assert (C' : match fst (step m1 r) with MQ _ _ _ => escaping (fst (step m2 r)) = false | _ => match fst (step m2 r) with MC _ _ => False | _ => True end end).
      { destruct m1; try discriminate O1; cbn [step].
        - destruct (N.eqb_spec r 34); [contradiction|]. destruct (N.eqb_spec r 92) as [->|N92].
          + cbn [fst]. destruct (P4 eq_refl C) as [H|[H|(x & l & H)]]; [| |rewrite H; exact Logic.I]; destruct (fst (step m2 92)); try discriminate H; exact Logic.I.
          + destruct (ws r); cbn [fst]; (destruct (escaping (fst (step m2 r))) eqn:X; [now destruct (P3 eq_refl)|reflexivity]).
        - cbn [fst]. destruct (escaping (fst (step m2 r))) eqn:X; [|reflexivity]. destruct (P3 eq_refl) as [-> X']. clear - C X X' O2. destruct m2; try discriminate; try contradiction C; cbn in X; discriminate X. }
      destruct P5 as [[Ee Ep]|[[Ee Ep]|(x & Ee & Nx)]].
      * exists (q ++ [r]), p. rewrite Ee. split; [now apply (o_in _ _ _ a2); [| | | |rewrite Ep; discriminate]|]. split; [exact I|]. split; [exact R3|]. split; [auto|]. split; [apply keeps_0 | auto].
      * destruct (Q Ep) as (q0 & Eq). exists (q ++ [r]), (p ++ [r]). rewrite Ee in *. split; [apply (o_in _ _ _ a2); auto; intros _; exists q0; rewrite Eq; now rewrite <- app_assoc|].
        split; [rewrite Eq, <- app_assoc in R2; now apply intro_tail in R2|]. split; [exact R3|]. split; [exact P2|]. split; [apply keeps_a | auto].
      * exists (q ++ [r]), []. rewrite Ee in *. split; [apply (o_in _ _ _ a2); auto; intros _; exists (q ++ [r]); now rewrite app_nil_r|].
        split; [reflexivity|]. split; [exact R3|]. split; [exact P2|]. split; [now apply keeps_x | auto].
  - (* outside, the other run inside *)
    destruct (N.eqb_spec r 34) as [->|N34].
    + destruct m1; try discriminate O1; cbn [regular_from] in R; try discriminate R.
      exists [], []. cbn in R |- *. split; [apply (o_in _ _ _ a); [reflexivity | reflexivity | reflexivity | reflexivity | intros _; now exists []]|]. split; [reflexivity|]. split; [exact R|].
      split; [intros [H|[]]; discriminate H|]. split; [now apply keeps_x | discriminate].
    + exists [], p. assert (R' : regular_from (fst (step m1 r)) [] z = true /\ (r = 92 -> plain_mode m1 = false)).
      { destruct m1; try discriminate O1; cbn [regular_from] in R; apply andb_true_iff in R as [R1 R]; split; auto; try reflexivity. intros ->. discriminate R1. }
      destruct R' as [R' NB].
      assert (E2 : snd (step (MQ a acc pend) r) = [] /\ exists acc' pend', fst (step (MQ a acc pend) r) = if r =? 92 then MQE a acc pend else MQ a acc' pend').
      { cbn [step]. destruct (N.eqb_spec r 34); [contradiction|]. destruct (r =? 92); [split; [reflexivity | exists [], []; reflexivity]|]. destruct (ws r); cbn; eauto. }
      destruct E2 as (E2 & acc' & pend' & E3). rewrite E2, E3.
      assert (OX : outside (fst (step m1 r)) = true /\ (r <> 92 -> escaping (fst (step m1 r)) = false) /\ (r = 92 -> escaping (fst (step m1 r)) = true \/ exists a l, fst (step m1 r) = ML a l)).
      { destruct m1 as [b1|b1 n|b1 n|b1 ac pe|b1 ac pe|b1 l]; try discriminate O1; try discriminate C; cbn [step].
        - specialize (fun e => NB e). destruct (N.eqb_spec r 34); [contradiction|]. repeat match goal with |- context [if ?c then _ else _] => destruct c end; cbn; repeat split; auto; intros ->; specialize (NB eq_refl); discriminate NB.
        - destruct (N.eqb_spec r 40) as [->|]; [cbn; repeat split; auto; discriminate|]. destruct (N.eqb_spec r 41) as [->|]; [destruct n; cbn; repeat split; auto; discriminate|].
          destruct (N.eqb_spec r 92) as [->|]; cbn; repeat split; auto; intros H; now destruct H.
        - destruct (N.eqb_spec r 93) as [->|]; cbn; repeat split; auto; try discriminate. eauto. }
      destruct OX as (X1 & X2 & X3). split; [destruct (N.eqb_spec r 92); [apply o_e; auto | apply o_n; auto]|]. split; [exact I|]. split; [exact R'|]. split; [auto|]. split; [apply keeps_0 | discriminate].
  - exists [], p. assert (R' : regular_from (fst (step m1 r)) [] z = true /\ outside (fst (step m1 r)) = true /\ escaping (fst (step m1 r)) = false).
    { destruct C as [C|(b1 & l & ->)].
      - destruct m1; try discriminate C. cbn [regular_from] in R. apply andb_true_iff in R as [_ R]. auto.
      - cbn [regular_from] in R. apply andb_true_iff in R as [_ R]. split; [exact R|]. cbn [step]. destruct (r =? 93); auto. }
    destruct R' as (R' & X1 & X2). cbn [step fst snd] in *. split; [now apply o_n|]. split; [exact I|]. split; [exact R'|]. split; [auto|]. split; [apply keeps_0 | discriminate].
Qed.

(** A part of the text, after such a double quote: the other run reports no colon, and "=?" in no
    run of atom characters. *)
Lemma out_run y : forall q m1 m2 p z, out q p m1 m2 -> intro p = false -> regular_from m1 q (y ++ z) = true ->
  okruns false p (em m2 y) /\ ~ In (ES 58) (em m2 y) /\ exists q' p', out q' p' (mo m1 y) (mo m2 y) /\ intro p' = false /\ regular_from (mo m1 y) q' z = true.
Proof.
  induction y as [|r y IH]; intros q m1 m2 p z O I R.
  - cbn. split; [now left|]. split; [auto|]. exists q, p. auto.
  - cbn [app] in R. destruct (out_step q m1 m2 p r (y ++ z) O I R) as (q' & p' & O' & I' & R' & N & K & _). destruct (IH q' _ _ p' z O' I' R') as (K1 & N1 & X).
    rewrite em_cons, !mo_cons. split; [now apply (keeps_okruns p _ p')|]. split; [|exact X]. rewrite in_app_iff. tauto.
Qed.

Lemma regular_MN a q z : regular_from (MN a) q z = regular_from (MN a) [] z.
Proof. destruct z; reflexivity. Qed.

Lemma regular_app y : forall m q z, regular_from m q (y ++ z) = true -> exists q', regular_from (mo m y) q' z = true.
Proof.
  induction y as [|r y IH]; intros m q z R; [now exists q|]. rewrite mo_cons. cbn [app regular_from] in R.
  destruct m; try (apply andb_true_iff in R as [_ R]; eauto). destruct (r =? 34); apply andb_true_iff in R as [_ R]; eauto.
Qed.

Lemma regular_runs y a z E : runs_to (MN false) y (MN a) E -> regular_from (MN false) [] (y ++ z) = true -> regular_from (MN a) [] z = true.
Proof. intros H R. apply regular_app in R as (q & R). rewrite (runs_mo _ _ _ _ H), regular_MN in R. exact R. Qed.

Lemma out_open : out [] [] (MQ false [] []) (MN false).
Proof. apply (o_in _ _ _ false); auto. intros _. now exists []. Qed.

Lemma keeps_sep p p' : keeps p [ESep] p' -> p' = [].
Proof. intros [(r & H & _)|[(H & _)|(x & _ & _ & H)]]; [discriminate H | discriminate H | exact H]. Qed.

Section phase.
  Variables (rd : charset_reader) (b : bool).

  (** no group name out of phase *)
  Lemma out_name wn n z q m1 : r_display rd wn n -> Forall lexed wn -> out q [] m1 (MN false) -> regular_from m1 q (rs wn ++ 58 :: z) = true -> False.
  Proof.
    intros Hn Ln O R. change (58 :: z) with ([58] ++ z) in R. rewrite app_assoc in R.
    destruct (out_run _ q m1 (MN false) [] z O eq_refl R) as (K & N & _). apply N.
    destruct (display_scan rd false false [58] wn n Hn Ln (okruns_tamed _ _ _ _ K)) as (E & RE & _); [discriminate|].
    rewrite em_app, (runs_mo _ _ _ _ (RE false)). apply in_app_iff. right. now left.
  Qed.

  (** one separator out of phase *)
  Lemma out_sep t q p m1 z : lexed t -> listsep t -> out q p m1 (MN false) -> intro p = false -> regular_from m1 q (tr t :: z) = true ->
    out (q ++ [tr t]) [] (fst (step m1 (tr t))) (MN false) /\ regular_from (fst (step m1 (tr t))) (q ++ [tr t]) z = true.
  Proof.
    intros L H O I R. destruct (out_step q m1 (MN false) p (tr t) z O I R) as (q' & p' & O' & _ & R' & _ & K & Q).
    assert (S : step (MN false) (tr t) = (MN false, [ESep])) by (rewrite step_sep; [reflexivity | now apply sep_rune]).
    rewrite S in O', K, Q. cbn [fst snd] in O', K, Q. apply keeps_sep in K. subst p'. rewrite <- (Q eq_refl eq_refl). auto.
  Qed.

  (** [y] brings the other run back to plain text *)
  Lemma out_pass y q m1 z E : runs_to (MN false) y (MN false) E -> out q [] m1 (MN false) -> regular_from m1 q (y ++ z) = true ->
    exists q' p', out q' p' (mo m1 y) (MN false) /\ intro p' = false /\ regular_from (mo m1 y) q' z = true.
  Proof.
    intros H O R. destruct (out_run y q m1 (MN false) [] z O eq_refl R) as (_ & _ & q' & p' & O' & I' & R'). rewrite (runs_mo _ _ _ _ H) in O'. eauto.
  Qed.

  Lemma out_tail w l : r_tail (r_address rd) [T_Comma; T_Semicolon] w l -> Forall lexed w ->
    forall q p m1, out q p m1 (MN false) -> intro p = false -> regular_from m1 q (rs w) = true -> False.
  Proof.
    assert (SEP : forall t, In (tt t) [T_Comma; T_Semicolon] -> listsep t) by (intros t [H|[H|[]]]; [left | right]; now symmetry).
    induction 1 as [|t x l w l' Ht Hx H IH|t x w l' Ht Hx H IH]; intros L q p m1 O I R.
    - inversion O as [? ? ? O1| |]; subst. destruct m1; try discriminate O1; discriminate R.
    - inversion L as [|? ? Lt L1]; subst. apply Forall_app in L1 as [Lx Lw]. rewrite rs_cons, rs_app in R. specialize (SEP t Ht).
      apply (out_sep t q p m1 _ Lt SEP O I) in R as [O' R]. clear O I.
      destruct Hx as [x m Hx|x l (q1 & wn & n & c & wl & q2 & sc & u & -> & Hq1 & Hn & Hc & _) _].
      + destruct (out_run (rs x) _ _ (MN false) [] (rs w) O' eq_refl R) as (K & _).
        destruct (mailbox_scan rd x m Hx Lx false []) as (E & RE & _); [rewrite app_nil_r; eapply okruns_tamed; eassumption | discriminate|].
        destruct (out_pass (rs x) _ _ (rs w) E RE O' R) as (q' & p' & O2 & I2 & R2). exact (IH Lw q' p' _ O2 I2 R2).
      + apply Forall_app in Lx as [L1 Lx]. apply Forall_app in Lx as [Ln Lx]. inversion Lx as [|? ? Lc _]; subst.
        destruct Hq1 as [->|(k & -> & Ek)].
        * cbn [app] in R. rewrite !rs_app, rs_cons, <- app_assoc in R. tokc c 58. cbn [app] in R. exact (out_name wn n _ _ _ Hn Ln O' R).
        * apply Forall_inv in L1. cbn [app] in R. rewrite rs_cons in R. tokc k 34. inversion O' as [? ? ? O1| |]; subst.
          destruct (fst (step m1 (tr t))) eqn:M; try discriminate O1; cbn [app regular_from] in R; [|discriminate R].
          change (34 =? 34) with true in R. cbn iota in R. apply andb_true_iff in R as [R _]. apply andb_true_iff in R as [_ R]. unfold ends_with in R. rewrite rev_app_distr in R.
          cbn [rev app] in R. pose proof (sep_rune t Lt SEP) as S. cbn [existsb] in R. destruct S as [S|[S|[]]]; rewrite <- S in R; discriminate R.
    - inversion L as [|? ? Lt L1]; subst. apply Forall_app in L1 as [Lx Lw]. rewrite rs_cons, rs_app in R. specialize (SEP t Ht).
      apply (out_sep t q p m1 _ Lt SEP O I) in R as [O' R]. destruct (emits_cfws x Hx Lx) as (k & RE & _).
      destruct (out_pass (rs x) _ _ (rs w) _ (RE false) O' R) as (q' & p' & O2 & I2 & R2). exact (IH Lw q' p' _ O2 I2 R2).
  Qed.

  (** in phase *)
  Lemma element0 x l w l' : r_address rd x l -> r_tail (r_address rd) [T_Comma; T_Semicolon] w l' -> Forall lexed x -> Forall lexed w ->
    tamed b (MN false) (rs x ++ rs w) -> (b = true -> one_fold (rs x)) -> regular_from (MN false) [] (rs x ++ rs w) = true ->
    r_address0 rd x l /\ tamed b (MN false) (rs w) /\ regular_from (MN false) [] (rs w) = true.
  Proof.
    intros Hx Hw Lx Lw K O R.
    assert (TW : takeA (rs w) = []).
    { clear - Hw Lw. destruct Hw as [|t x l w l' Ht Hx H|t x w l' Ht Hx H]; [reflexivity| |]; inversion Lw; subst; rewrite rs_cons; apply takeA_sep; auto; destruct Ht as [Ht|[Ht|[]]]; [left | right | left | right]; now symmetry. }
    assert (H0 : r_address0 rd x l).
    { destruct Hx as [x m Hx|x l (q1 & wn & n & c & wl & q2 & sc & u & -> & Hq1 & Hn & Hc & Hl & Hq2 & Hs & Hu) _]; [left; now exists m|].
      apply Forall_app in Lx as [L1 Lx]. apply Forall_app in Lx as [Ln Lx]. inversion Lx as [|? ? Lc Lx1]; subst. apply Forall_app in Lx1 as [Ll Lx1]. apply Forall_app in Lx1 as [L2 Lx1]. apply Forall_app in Lx1 as [Ls Lu].
      rewrite !rs_app, rs_cons, !rs_app in K, R, O. tokc c 58.
      destruct Hq1 as [->|(k & -> & Ek)].
      2: { exfalso. apply Forall_inv in L1. cbn [rs map app] in R. tokc k 34. fold (rs wn) in R. cbn [regular_from] in R. apply andb_true_iff in R as [_ R].
           change (fst (step (MN false) 34)) with (MQ false [] []) in R. rewrite <- app_assoc in R. cbn [app] in R. exact (out_name wn n _ _ _ Hn Ln out_open R). }
      cbn [rs map app] in K, R, O. fold (rs wn) in K, R, O. rewrite <- !app_assoc in K, R. cbn [app] in K, R. rewrite <- !app_assoc in K, R.
      destruct Hq2 as [->|(k & -> & Ek)]; [right; exists wn, n, c, wl, sc, u; auto 10|]. exfalso. apply Forall_inv in L2.
      cbn [rs map app] in K, R, O. tokc k 34. fold (rs sc) in K, R, O. 
      assert (O1 : b = true -> one_fold (rs wn) /\ one_fold (rs wl)).
      { intros Hb. specialize (O Hb). apply one_fold_app in O as [O1 O]. apply (one_fold_app [58%N]) in O as [_ O]. now apply one_fold_app in O. }
      set (z := rs wl ++ 34 :: rs sc ++ rs u ++ rs w) in *.
      destruct (display_scan rd b false (58%N :: z) wn n Hn Ln K) as (N & RN & _ & DN); [intros Hb; now apply O1|].
      assert (K1 : tamed b (MN false) z).
      { apply (tamed_runs _ _ _ _ _ _ (RN false)) in K. exact (tamed_next b (MN false) [58%N] z K). }
      destruct (grouplist_scanned rd b wl l (34 :: rs sc ++ rs u ++ rs w) Hl Ll eq_refl K1) as (E & RE & _); [intros Hb; now apply O1|].
      apply (regular_runs _ _ _ _ (RN false)) in R. cbn [regular_from] in R. apply andb_true_iff in R as [_ R]. change (fst (step (MN false) 58)) with (MN false) in R.
      apply (regular_runs _ _ _ _ RE) in R. cbn [regular_from] in R. apply andb_true_iff in R as [_ R]. change (fst (step (MN false) 34)) with (MQ false [] []) in R.
      destruct (emits_cfws u Hu Lu) as (j & RU & _).
      assert (exists F, runs_to (MN false) (rs sc ++ rs u) (MN false) F) as (F & RF).
      { destruct Hs as [->|(t & -> & Et)]; [eexists; apply RU|]. apply Forall_inv in Ls. eexists. apply runs_sep; [exact Ls | now right | apply RU]. }
      rewrite app_assoc in R. destruct (out_pass _ _ _ (rs w) F RF out_open R) as (q' & p' & O2 & I2 & R2). exact (out_tail w l' Hw Lw q' p' _ O2 I2 R2). }
    split; [exact H0|]. destruct (address0_scanned rd b x l (rs w) H0 Lx TW K O) as (E & RE & _).
    split; [eapply tamed_runs; eassumption | eapply regular_runs; eassumption].
  Qed.

  Lemma tail0 w l : r_tail (r_address rd) [T_Comma; T_Semicolon] w l -> Forall lexed w -> tamed b (MN false) (rs w) -> (b = true -> one_fold (rs w)) ->
    regular_from (MN false) [] (rs w) = true -> r_tail (r_address0 rd) [T_Comma; T_Semicolon] w l.
  Proof.
    assert (SEP : forall t, In (tt t) [T_Comma; T_Semicolon] -> listsep t) by (intros t [H|[H|[]]]; [left | right]; now symmetry).
    induction 1 as [|t x l w l' Ht Hx H IH|t x w l' Ht Hx H IH]; intros L K O R; [constructor| |].
    all: inversion L as [|? ? Lt L1]; subst; apply Forall_app in L1 as [Lx Lw]; rewrite rs_cons, rs_app in K, O, R; specialize (SEP t Ht).
    all: apply tamed_sep in K; [|exact Lt | exact SEP].
    all: assert (O1 : b = true -> one_fold (rs x) /\ one_fold (rs w)) by (intros Hb; specialize (O Hb); apply (one_fold_app [tr t]) in O as [_ O]; now apply one_fold_app in O).
    all: apply (regular_runs [tr t] false _ [ESep]) in R; [|apply runs_sep; [exact Lt | exact SEP | apply runs_nil]].
    - destruct (element0 x l w l' Hx H Lx Lw K) as (H0 & K2 & R2); [intros Hb; now apply O1 | exact R|]. apply rt_item; auto. apply IH; auto. intros Hb. now apply O1.
    - apply rt_skip; auto. destruct (emits_cfws x Hx Lx) as (j & RE & _). apply IH; auto.
      + eapply tamed_runs; [apply (RE false) | exact K].
      + intros Hb. now apply O1.
      + eapply regular_runs; [apply (RE false) | exact R].
  Qed.

  Lemma list0 w l : r_list (r_address rd) [T_Comma; T_Semicolon] w l -> Forall lexed w -> tamed b (MN false) (rs w) -> (b = true -> one_fold (rs w)) ->
    regular_from (MN false) [] (rs w) = true -> r_list (r_address0 rd) [T_Comma; T_Semicolon] w l.
  Proof.
    intros (j & x & l1 & t & l2 & -> & Hj & Hx & Ht & ->) L K O R. apply Forall_app in L as [Lj L]. apply Forall_app in L as [Lx Lt]. rewrite !rs_app in K, O, R.
    assert (O1 : b = true -> one_fold (rs x) /\ one_fold (rs t)) by (intros Hb; specialize (O Hb); apply one_fold_app in O as [_ O]; now apply one_fold_app in O).
    destruct (junk_scan rd b j Hj Lj _ K) as (J & RJ & KJ & _). apply (regular_runs _ _ _ _ RJ) in R.
    destruct (element0 x l1 t l2 Hx Ht Lx Lt KJ) as (H0 & K2 & R2); [intros Hb; now apply O1 | exact R|].
    exists j, x, l1, t, l2. repeat (split; [auto; fail|]). split; [|reflexivity]. apply tail0; auto. intros Hb. now apply O1.
  Qed.
End phase.

(** * Texts without loose quotes *)
Lemma loose_app x : forall st y, loose st (x ++ y) = false -> exists st', loose st' y = false.
Proof.
  induction x as [|r x IH]; intros st y H; [eauto|]. cbn [app loose] in H. apply orb_false_iff in H as [_ H]. eauto.
Qed.

Lemma at_end_ws t x : ws t = true -> at_end (t :: x) = at_end x.
Proof. intros H. unfold at_end. cbn [after_space]. now rewrite H. Qed.

Lemma at_end_cf u z : cf u -> Forall lexed u -> at_end z = true -> at_end (rs u ++ z) = true.
Proof.
  intros C. revert z. induction C as [|t w Ht C IH|c w Hc C IH]; intros z L Hz; [exact Hz| |].
  - inversion L as [|? ? Lt Lw]; subst. rewrite rs_cons. cbn [app]. rewrite at_end_ws; [auto|].
    assert (W : Forall (fun r => ws r = true) (rs [t])) by (apply ws_toks; auto). cbn in W. now inversion W.
  - apply lang_comment in Hc as (o & m & k & -> & Ho & _). inversion L as [|? ? Lo Lw]; subst. cbn [app]. rewrite rs_cons. tokc o 40. reflexivity.
Qed.

Section loose_texts.
  Variable rd : charset_reader.

  Definition stops (w : word) : Prop := w = [] \/ exists t v, w = t :: v /\ listsep t.

  Lemma stops_tail P w l : r_tail P [T_Comma; T_Semicolon] w l -> stops w.
  Proof. intros [|t x l0 w' l' [H|[H|[]]]|t x w' l' [H|[H|[]]]]; [now left| | | |]; right; eexists _, _; (split; [reflexivity|]); [left | right | left | right]; now symmetry. Qed.

  Lemma stops_end w : stops w -> Forall lexed w -> at_end (rs w) = true.
  Proof.
    intros [->|(t & v & -> & H)] L; [reflexivity|]. apply Forall_inv in L. rewrite rs_cons. destruct (sep_rune t L H) as [<-|[<-|[]]]; reflexivity.
  Qed.

  Lemma element1 x l w : r_address rd x l -> stops w -> Forall lexed x -> Forall lexed w -> loose true (rs x ++ rs w) = false -> r_address0 rd x l.
  Proof.
    intros Hx Hw Lx Lw R. destruct Hx as [x m Hx|x l (q1 & wn & n & c & wl & q2 & sc & u & -> & Hq1 & Hn & Hc & Hl & Hq2 & Hs & Hu) _]; [left; now exists m|].
    apply Forall_app in Lx as [L1 Lx]. apply Forall_app in Lx as [Ln Lx]. inversion Lx as [|? ? Lc Lx1]; subst. apply Forall_app in Lx1 as [Ll Lx1]. apply Forall_app in Lx1 as [L2 Lx1]. apply Forall_app in Lx1 as [Ls Lu].
    rewrite !rs_app, rs_cons, !rs_app in R.
    destruct Hq1 as [->|(k & -> & Ek)].
    2: { exfalso. apply Forall_inv in L1. cbn [rs map app] in R. tokc k 34. cbn [loose] in R. discriminate R. }
    destruct Hq2 as [->|(k & -> & Ek)]; [right; exists wn, n, c, wl, sc, u; auto 10|]. exfalso. apply Forall_inv in L2.
    cbn [rs map app] in R. fold (rs wn) (rs sc) in R. rewrite <- !app_assoc in R. apply loose_app in R as [s1 R].
    change (tr c :: rs wl ++ tr k :: rs sc ++ rs u) with ([tr c] ++ rs wl ++ tr k :: rs sc ++ rs u) in R. rewrite <- !app_assoc in R. apply loose_app in R as [s2 R]. apply loose_app in R as [s3 R].
    tokc k 34. cbn [app loose] in R. apply orb_false_iff in R as [R _]. cbn in R. apply orb_false_iff in R as [_ R].
    assert (E : at_end (rs sc ++ rs u ++ rs w) = true).
    { destruct Hs as [->|(t & -> & Et)].
      - cbn [rs map app]. apply at_end_cf; auto using cfws_cf. now apply stops_end.
      - apply Forall_inv in Ls. cbn [rs map app]. tokc t 59. reflexivity. }
    rewrite <- !app_assoc in R. rewrite E in R. discriminate R.
  Qed.

  Lemma loose_sep t x st : lexed t -> listsep t -> loose st (tr t :: x) = false -> loose true x = false.
  Proof. intros L H R. cbn [loose] in R. apply orb_false_iff in R as [_ R]. destruct (sep_rune t L H) as [E|[E|[]]]; rewrite <- E in R; exact R. Qed.

  Lemma tail1 w l : r_tail (r_address rd) [T_Comma; T_Semicolon] w l -> Forall lexed w -> forall st, loose st (rs w) = false -> r_tail (r_address0 rd) [T_Comma; T_Semicolon] w l.
  Proof.
    assert (SEP : forall t, In (tt t) [T_Comma; T_Semicolon] -> listsep t) by (intros t [H|[H|[]]]; [left | right]; now symmetry).
    induction 1 as [|t x l w l' Ht Hx H IH|t x w l' Ht Hx H IH]; intros L st R; [constructor| |].
    all: inversion L as [|? ? Lt L1]; subst; apply Forall_app in L1 as [Lx Lw]; rewrite rs_cons, rs_app in R; apply loose_sep in R; auto; destruct (loose_app _ _ _ R) as [s1 R1].
    - apply rt_item; [exact Ht | | now apply (IH Lw s1)]. apply (element1 x l w); auto. now apply stops_tail in H.
    - apply rt_skip; auto. now apply (IH Lw s1).
  Qed.

  Lemma junk_loose j : junk j -> Forall lexed j -> forall x, loose true (rs j ++ x) = false -> loose true x = false.
  Proof.
    intros H. unfold junk in H. apply lang_star_inv in H as (us & -> & H). induction H as [|v us Hv H IH]; intros L x R; [exact R|]. cbn [concat] in *.
    apply Forall_app in L as [Lv Lu]. rewrite rs_app, <- app_assoc in R. apply IH; [exact Lu|]. cbn [seqs] in Hv. apply lang_seq in Hv as (u & k & -> & _ & Hk). apply lang_cls in Hk as (t & -> & [Et|[]]).
    apply Forall_app in Lv as [_ Lk]. apply Forall_inv in Lk. rewrite rs_app, <- app_assoc in R. apply loose_app in R as [s1 R]. cbn [rs map app] in R. apply loose_sep in R; [exact R | exact Lk | left; now symmetry].
  Qed.

  Lemma list1 w l : r_list (r_address rd) [T_Comma; T_Semicolon] w l -> Forall lexed w -> loose true (rs w) = false -> r_list (r_address0 rd) [T_Comma; T_Semicolon] w l.
  Proof.
    intros (j & x & l1 & t & l2 & -> & Hj & Hx & Ht & ->) L R. apply Forall_app in L as [Lj L]. apply Forall_app in L as [Lx Lt]. rewrite !rs_app in R.
    apply junk_loose in R; auto. destruct (loose_app _ _ _ R) as [s1 R1]. exists j, x, l1, t, l2. split; [reflexivity|]. split; [exact Hj|]. split; [apply (element1 x l1 t); auto; now apply stops_tail in Ht|].
    split; [now apply (tail1 t l2 Ht Lt s1) | reflexivity].
  Qed.
End loose_texts.
