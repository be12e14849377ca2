(** The reading of a stripped date-time text is unique: [spell] is injective on well-formed
    texts. *)
From Coq Require Import String List NArith ZArith Bool Arith Lia.
From Verif Require Import Lexer Utf8 Utf8Facts Strs GoTime DateSpec.
Import ListNotations.
Local Open Scope N_scope.

Definition letter (c : rune) : Prop := 97 <= lower_byte c <= 122.

Lemma dig_letter c : is_dig c -> ~ letter c.
Proof.
  unfold is_dig, letter, lower_byte, in_range. intros H.
  destruct (65 <=? c) eqn:E1; destruct (c <=? 90) eqn:E2; cbn; rewrite ?N.leb_le, ?N.leb_gt in *; lia.
Qed.

(** The longest prefix with a property is unique. *)
Lemma span_unique (P : rune -> Prop) a1 r1 a2 r2 :
  Forall P a1 -> Forall P a2 ->
  (forall c l, r1 = c :: l -> ~ P c) -> (forall c l, r2 = c :: l -> ~ P c) ->
  a1 ++ r1 = a2 ++ r2 -> a1 = a2 /\ r1 = r2.
Proof.
  intros H1. revert a2. induction H1 as [|x a1 Hx H1 IH]; intros a2 H2 N1 N2 E.
  - destruct H2 as [|y a2 Hy H2]; [auto|]. cbn in E. exfalso. subst r1. now apply (N1 y (a2 ++ r2)).
  - destruct H2 as [|y a2 Hy H2].
    + cbn in E. exfalso. subst r2. now apply (N2 x (a1 ++ r1)).
    + cbn in E. injection E as <- E. destruct (IH a2 H2 N1 N2 E) as [-> ->]. auto.
Qed.

Lemma lower_letters n l : In (to_lower l) n -> Forall (Forall (fun c => 97 <= c <= 122)) n -> Forall letter l.
Proof.
  intros H Hn. rewrite Forall_forall in Hn. specialize (Hn _ H). unfold to_lower in Hn.
  rewrite Forall_map in Hn. exact Hn.
Qed.

Lemma day_names_letters : Forall (Forall (fun c => 97 <= c <= 122)) day_names.
Proof. vm_compute. repeat (constructor; [repeat constructor; vm_compute; discriminate|]). constructor. Qed.

Lemma month_names_letters : Forall (Forall (fun c => 97 <= c <= 122)) month_names.
Proof. vm_compute. repeat (constructor; [repeat constructor; vm_compute; discriminate|]). constructor. Qed.

Lemma zone_names_letters : Forall (Forall (fun c => 97 <= c <= 122)) (map fst zone_names).
Proof. vm_compute. repeat (constructor; [repeat constructor; vm_compute; discriminate|]). constructor. Qed.

Lemma denotes_wf now d t : denotes now d t -> wf_date d.
Proof.
  intros (H1 & H2 & H3 & H4 & H5 & H6 & k & l & H7 & H8 & _).
  refine (conj H1 (conj H2 (conj H3 (conj H4 (conj H5 (conj H6 (conj _ _))))))); eauto using nth_error_In.
Qed.

Lemma wf_denotes now d : wf_date d -> exists t, denotes now d t.
Proof.
  intros (H1 & H2 & H3 & H4 & H5 & H6 & H7 & l & H8).
  apply In_nth_error in H7 as [k Hk]. eexists.
  refine (conj H1 (conj H2 (conj H3 (conj H4 (conj H5 (conj H6 _)))))). exists k, l. eauto.
Qed.

Lemma zone_head l loc : zone_text l loc -> forall c r, l = c :: r -> c <> 58.
Proof.
  intros H c r E. destruct H as [|h1 h2 m1 m2 HF|h1 h2 m1 m2 HF|h1 h2 m1 m2 HF|n hours HI].
  - discriminate.
  - injection E as <- _. discriminate.
  - injection E as <- _. discriminate.
  - injection E as <- _. inversion HF; subst. unfold is_dig in *. lia.
  - subst n. apply (in_map fst) in HI. pose proof (lower_letters _ _ HI zone_names_letters) as HL.
    inversion HL; subst. unfold letter, lower_byte, in_range in *.
    intros ->. cbn in H1. lia.
Qed.

Lemma ndigits_len n l : ndigits n l -> length l = n.
Proof. now intros []. Qed.

Lemma ndigits_all n l : ndigits n l -> Forall is_dig l.
Proof. now intros []. Qed.

Lemma app_len_inj {A} (a1 r1 a2 r2 : list A) :
  length a1 = length a2 -> a1 ++ r1 = a2 ++ r2 -> a1 = a2 /\ r1 = r2.
Proof.
  revert a2. induction a1 as [|x a1 IH]; intros [|y a2] HL E; try discriminate; [auto|].
  cbn in *. injection E as <- E. apply IH in E as [-> ->]; [auto | lia].
Qed.

Lemma digit_head (l r : list rune) : Forall is_dig l -> l <> [] -> forall c m, l ++ r = c :: m -> is_dig c.
Proof. intros H Hl c m E. destruct H; [congruence|]. cbn in E. now injection E as <- _. Qed.

Lemma letter_head (l r : list rune) : Forall letter l -> l <> [] -> forall c m, l ++ r = c :: m -> letter c.
Proof. intros H Hl c m E. destruct H; [congruence|]. cbn in E. now injection E as <- _. Qed.

Lemma nonempty_len {A} (l : list A) n : length l = S n -> l <> [].
Proof. intros H ->. discriminate. Qed.

Lemma mon_len l : In (to_lower l) month_names -> length l = 3%nat.
Proof.
  intros H. unfold to_lower in H.
  assert (HA : Forall (fun m => length m = 3%nat) month_names) by (vm_compute; repeat constructor).
  rewrite Forall_forall in HA. apply HA in H. rewrite map_length in H. exact H.
Qed.

Lemma dow_len l : In (to_lower l) day_names -> length l = 3%nat.
Proof.
  intros H. unfold to_lower in H.
  assert (HA : Forall (fun m => length m = 3%nat) day_names) by (vm_compute; repeat constructor).
  rewrite Forall_forall in HA. apply HA in H. rewrite map_length in H. exact H.
Qed.

Lemma spell_inj d1 d2 : wf_date d1 -> wf_date d2 -> spell d1 = spell d2 -> d1 = d2.
Proof.
  destruct d1 as [w1 dd1 mo1 y1 h1 mi1 s1 z1], d2 as [w2 dd2 mo2 y2 h2 mi2 s2 z2].
  unfold wf_date, spell. cbn [d_dow d_day d_mon d_year d_hour d_min d_sec d_zone].
  change (bs ",") with [44]. change (bs ":") with [58].
  intros (W1 & D1 & Y1 & H1 & M1 & S1 & MO1 & l1 & Z1) (W2 & D2 & Y2 & H2 & M2 & S2 & MO2 & l2 & Z2) E.
  assert (DD1 : Forall is_dig dd1 /\ dd1 <> []).
  { destruct D1 as [D|D]; split; try (eapply ndigits_all; eassumption); apply ndigits_len in D; eapply nonempty_len; eassumption. }
  assert (DD2 : Forall is_dig dd2 /\ dd2 <> []).
  { destruct D2 as [D|D]; split; try (eapply ndigits_all; eassumption); apply ndigits_len in D; eapply nonempty_len; eassumption. }
  assert (YH1 : Forall is_dig (y1 ++ h1) /\ y1 ++ h1 <> []).
  { split; [apply Forall_app; split; [destruct Y1 | destruct H1]; eapply ndigits_all; eassumption|].
    intros EE. apply app_eq_nil in EE as [-> _]. destruct Y1 as [[]|[]]; discriminate. }
  assert (YH2 : Forall is_dig (y2 ++ h2) /\ y2 ++ h2 <> []).
  { split; [apply Forall_app; split; [destruct Y2 | destruct H2]; eapply ndigits_all; eassumption|].
    intros EE. apply app_eq_nil in EE as [-> _]. destruct Y2 as [[]|[]]; discriminate. }
  assert (ML1 : Forall letter mo1) by (eapply lower_letters; [eassumption | apply month_names_letters]).
  assert (ML2 : Forall letter mo2) by (eapply lower_letters; [eassumption | apply month_names_letters]).
  assert (MN1 : mo1 <> []) by (apply mon_len in MO1; eapply nonempty_len; eassumption).
  assert (MN2 : mo2 <> []) by (apply mon_len in MO2; eapply nonempty_len; eassumption).
  (* day of week *)
  assert (EW : w1 = w2 /\ dd1 ++ mo1 ++ y1 ++ h1 ++ [58] ++ mi1 ++ match s1 with [] => [] | r :: l => [58] ++ r :: l end ++ z1 =
               dd2 ++ mo2 ++ y2 ++ h2 ++ [58] ++ mi2 ++ match s2 with [] => [] | r :: l => [58] ++ r :: l end ++ z2).
  { set (r1 := dd1 ++ _) in *. set (r2 := dd2 ++ _) in *.
    assert (R1 : forall c l, r1 = c :: l -> ~ letter c).
    { intros c l Ec. apply dig_letter. eapply digit_head; [apply DD1 | apply DD1 | exact Ec]. }
    assert (R2 : forall c l, r2 = c :: l -> ~ letter c).
    { intros c l Ec. apply dig_letter. eapply digit_head; [apply DD2 | apply DD2 | exact Ec]. }
    assert (NC : ~ letter 44) by (unfold letter; vm_compute; intros [HH _]; now apply HH).
    assert (L1 : exists q1, (match w1 with [] => [] | r :: l => (r :: l) ++ [44] end) ++ r1 = w1 ++ q1 /\ Forall letter w1 /\
        (forall c l, q1 = c :: l -> ~ letter c) /\ (w1 = [] /\ q1 = r1 \/ w1 <> [] /\ q1 = 44 :: r1)).
    { destruct W1 as [-> | W1]; [exists r1; repeat split; auto|].
      assert (w1 <> []) by (apply dow_len in W1; eapply nonempty_len; eassumption).
      exists (44 :: r1). split; [destruct w1; [congruence|]; now rewrite <- app_assoc|].
      split; [eapply lower_letters; [eassumption | apply day_names_letters]|].
      split; [intros c l Ec; injection Ec as <- _; exact NC | auto]. }
    assert (L2 : exists q2, (match w2 with [] => [] | r :: l => (r :: l) ++ [44] end) ++ r2 = w2 ++ q2 /\ Forall letter w2 /\
        (forall c l, q2 = c :: l -> ~ letter c) /\ (w2 = [] /\ q2 = r2 \/ w2 <> [] /\ q2 = 44 :: r2)).
    { destruct W2 as [-> | W2]; [exists r2; repeat split; auto|].
      assert (w2 <> []) by (apply dow_len in W2; eapply nonempty_len; eassumption).
      exists (44 :: r2). split; [destruct w2; [congruence|]; now rewrite <- app_assoc|].
      split; [eapply lower_letters; [eassumption | apply day_names_letters]|].
      split; [intros c l Ec; injection Ec as <- _; exact NC | auto]. }
    destruct L1 as (q1 & Q1 & F1 & N1 & C1), L2 as (q2 & Q2 & F2 & N2 & C2).
    rewrite Q1, Q2 in E.
    apply (span_unique letter) in E as [-> ->]; auto. split; [reflexivity|].
    destruct C1 as [[A B]|[A B]], C2 as [[A' B']|[A' B']]; try congruence; subst; congruence. }
  destruct EW as [-> E'']. clear E W1 W2.
  (* day *)
  apply (span_unique is_dig) in E'' as [-> E]; try apply DD1; try apply DD2.
  2:{ intros c l Ec HD. eapply dig_letter; [exact HD|]. eapply letter_head; [| |exact Ec]; assumption. }
  2:{ intros c l Ec HD. eapply dig_letter; [exact HD|]. eapply letter_head; [| |exact Ec]; assumption. }
  (* month *)
  rewrite (app_assoc y1), (app_assoc y2) in E.
  apply (span_unique letter) in E as [-> E]; try assumption.
  2:{ intros c l Ec. apply dig_letter. eapply digit_head; [apply YH1 | apply YH1 | exact Ec]. }
  2:{ intros c l Ec. apply dig_letter. eapply digit_head; [apply YH2 | apply YH2 | exact Ec]. }
  (* year and hour *)
  apply (span_unique is_dig) in E as [EY E]; try apply YH1; try apply YH2.
  2:{ intros c l Ec. injection Ec as <- _. unfold is_dig. lia. }
  2:{ intros c l Ec. injection Ec as <- _. unfold is_dig. lia. }
  apply app_len_inj in EY as [-> ->].
  2:{ apply (f_equal (@length _)) in EY. rewrite !app_length in EY.
      destruct Y1 as [[Y1 _]|[Y1 _]], Y2 as [[Y2 _]|[Y2 _]], H1 as [[H1 _]|[H1 _]], H2 as [[H2 _]|[H2 _]]; 
      rewrite Y1, Y2, H1, H2 in EY; first [congruence | discriminate]. }
  apply app_len_inj in E as [_ E]; [|reflexivity].
  (* minute *)
  apply app_len_inj in E as [-> E]; [|destruct M1 as [M1 _], M2 as [M2 _]; congruence].
  (* seconds and zone *)
  assert (SZ : s1 = s2 /\ z1 = z2).
  { destruct S1 as [-> | [S1 _]].
    - destruct S2 as [-> | [S2 _]].
      + auto.
      + destruct s2 as [|a s2]; [discriminate|]. cbn in E. exfalso.
        now apply (zone_head z1 l1 Z1 58 (a :: s2 ++ z2)).
    - destruct S2 as [-> | [S2 _]].
      + destruct s1 as [|a s1]; [discriminate|]. cbn in E. exfalso.
        now apply (zone_head z2 l2 Z2 58 (a :: s1 ++ z1)).
      + destruct s1 as [|a1 s1], s2 as [|a2 s2]; try discriminate. rewrite <- !app_comm_cons in E.
        injection E as -> E. injection S1 as S1. injection S2 as S2.
        apply app_len_inj in E as [-> ->]; [auto | congruence]. }
  destruct SZ as [-> ->]. reflexivity.
Qed.

Lemma zone_names_nodup : NoDup (map fst zone_names).
Proof. vm_compute. repeat (constructor; [cbn; intuition congruence|]). constructor. Qed.

Lemma nodup_fun {A B} (l : list (A * B)) a b1 b2 : NoDup (map fst l) -> In (a, b1) l -> In (a, b2) l -> b1 = b2.
Proof.
  induction l as [|[x y] l IH]; cbn; [tauto|]. intros H. inversion H; subst.
  intros [E1|E1] [E2|E2]; try congruence; auto.
  - injection E1 as -> ->. exfalso. apply H2. now apply (in_map fst) in E2.
  - injection E2 as -> ->. exfalso. apply H2. now apply (in_map fst) in E1.
Qed.

(** An alphabetic zone starts with a letter. *)
Lemma zone_name_head c l : In (to_lower (c :: l)) (map fst zone_names) -> letter c.
Proof.
  intros H. pose proof (lower_letters _ _ H zone_names_letters) as HL. now inversion HL.
Qed.

Lemma zone_text_fun l a b : zone_text l a -> zone_text l b -> a = b.
Proof.
  intros H1 H2.
  destruct H1 as [|h1 h2 m1 m2 F|h1 h2 m1 m2 F|h1 h2 m1 m2 F|n hours I1];
    inversion H2 as [E|g1 g2 n1 n2 F' E|g1 g2 n1 n2 F' E|g1 g2 n1 n2 F' E|n' hours' I2 E]; subst;
    try reflexivity; try discriminate;
    try (injection E as -> -> -> ->; reflexivity).
  all: try match goal with H : In (to_lower [], _) _ |- _ => exfalso; revert H; vm_compute; intuition discriminate end.
  all: try match goal with
    | H : In (to_lower (?c :: _), _) _ |- _ =>
        exfalso; apply (in_map fst) in H; apply zone_name_head in H;
        first [ revert H; vm_compute; intuition congruence
              | match goal with F : Forall is_dig (c :: _) |- _ => inversion F; subst; eapply dig_letter; eassumption end ]
    end.
  all: try match goal with
    | H : In (to_lower (bs _ ++ _), _) _ |- _ =>
        exfalso; apply (in_map fst) in H; apply zone_name_head in H; vm_compute in H; intuition congruence
    end.
  all: try (exfalso; match goal with F : Forall is_dig (?c :: _), E : _ |- _ => inversion F; subst; unfold is_dig in *; injection E; intros; subst; lia end).
  now rewrite (nodup_fun _ _ _ _ zone_names_nodup I1 I2).
Qed.

Lemma nodup_nth {A} (l : list A) i j x : NoDup l -> nth_error l i = Some x -> nth_error l j = Some x -> i = j.
Proof.
  intros H Hi Hj. rewrite NoDup_nth_error in H. apply H; [|congruence].
  apply nth_error_Some. congruence.
Qed.

Lemma month_names_nodup : NoDup month_names.
Proof. vm_compute. repeat (constructor; [cbn; intuition congruence|]). constructor. Qed.

Theorem denotes_fun now d t1 t2 : denotes now d t1 -> denotes now d t2 -> t1 = t2.
Proof.
  intros (_ & _ & _ & _ & _ & _ & k & l & K & Z & ->) (_ & _ & _ & _ & _ & _ & k' & l' & K' & Z' & ->).
  rewrite (nodup_nth _ _ _ _ month_names_nodup K K'), (zone_text_fun _ _ _ Z Z'). reflexivity.
Qed.

Theorem reading_unique now d1 d2 t1 t2 :
  denotes now d1 t1 -> denotes now d2 t2 -> spell d1 = spell d2 -> d1 = d2 /\ t1 = t2.
Proof.
  intros H1 H2 E. assert (d1 = d2) as <- by (apply spell_inj; eauto using denotes_wf).
  split; [reflexivity | eapply denotes_fun; eauto].
Qed.
