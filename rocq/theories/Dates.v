(** Every parse tree of a date-time stands for the time its stripped text denotes. *)
From Coq Require Import String List NArith ZArith Bool Arith Lia.
From Verif Require Import Lexer Grammar Utf8 Strs Mime GoTime Parser Walker Api Spec ParserFacts
  WalkerFacts Static Total Cfws DateSpec.
Import ListNotations.

(** ** Scanning *)

(** [u] leaves the tokens [ds]. *)
Definition emits (u ds : word) : Prop := forall v, tscan 0 (u ++ v) = ds ++ tscan 0 v.

Lemma emits_app u a v b : emits u a -> emits v b -> emits (u ++ v) (a ++ b).
Proof. intros H1 H2 w. now rewrite <- app_assoc, H1, H2, app_assoc. Qed.

Lemma emits_skip u : skips u -> emits u [].
Proof. intros H v. apply H. Qed.

Lemma emits_tok t : tkind (tt t) <> KWs -> tkind (tt t) <> KOpen -> emits [t] [t].
Proof. intros H1 H2 v. cbn [app tscan]. destruct (tkind (tt t)); congruence. Qed.

Lemma emits_leaf t T : tt t = T -> tkind T = KOther -> emits (yields [Leaf t]) [t].
Proof. intros <- H. apply emits_tok; rewrite H; discriminate. Qed.

Definition dig (t : tok) : Prop := tt t = T_Digit.

(** What a numeric rule leaves: its digits, which are also its text. *)
Definition num_node (ch : list tree) (ds : word) : Prop :=
  emits (yields ch) ds /\ Forall dig ds /\ digits_text ch = flat_map tok_text ds.

Lemma num_app f1 d1 f2 d2 : num_node f1 d1 -> num_node f2 d2 -> num_node (f1 ++ f2) (d1 ++ d2).
Proof.
  intros [A1 [B1 C1]] [A2 [B2 C2]]. split; [|split].
  - rewrite yields_app. now apply emits_app.
  - now apply Forall_app.
  - now rewrite digits_text_app, flat_map_app, C1, C2.
Qed.

Lemma num_skip r ch : skips (yields ch) -> num_node [Node r ch] [].
Proof.
  intros H. split; [|split].
  - rewrite yields_node. now apply emits_skip.
  - constructor.
  - reflexivity.
Qed.

Lemma num_nil : num_node [] [].
Proof. split; [intros v; reflexivity | split; [constructor | reflexivity]]. Qed.

Lemma num_leaf t : In (tt t) [T_Digit] -> num_node [Leaf t] [t].
Proof.
  intros [H|[]]. symmetry in H. split; [|split].
  - eapply emits_leaf; [exact H | reflexivity].
  - constructor; [exact H | constructor].
  - rewrite digits_text_leaf by exact H. cbn. now rewrite app_nil_r.
Qed.

Ltac num_build :=
  repeat match goal with
         | |- num_node (_ ++ _) _ => eapply num_app
         | |- num_node [Leaf _] _ => apply num_leaf; assumption
         | |- num_node [Node _ _] _ => apply num_skip; auto using skips_fws, skips_cfws; fail
         | |- num_node [] _ => apply num_nil
         end.

Lemma day_num ch : derives (body R_day) ch ->
  exists ds, num_node ch ds /\ (length ds = 1 \/ length ds = 2).
Proof.
  intros H. dinv H; (eexists; split; [num_build | cbn; auto]).
Qed.

Lemma year_num_node ch : derives (body R_year) ch ->
  exists ds, num_node ch ds /\ (length ds = 2 \/ length ds = 4).
Proof. intros H. dinv H; (eexists; split; [num_build | cbn; auto]). Qed.

Lemma hour_num ch : derives (body R_hour) ch ->
  exists ds, num_node ch ds /\ (length ds = 1 \/ length ds = 2).
Proof. intros H. dinv H; (eexists; split; [num_build | cbn; auto]). Qed.

Lemma minute_num ch : derives (body R_minute) ch ->
  exists ds, num_node ch ds /\ length ds = 2.
Proof. intros H. dinv H; (eexists; split; [num_build | cbn; auto]). Qed.

Lemma second_num ch : derives (body R_second) ch ->
  exists ds, num_node ch ds /\ length ds = 2.
Proof. intros H. dinv H; (eexists; split; [num_build | cbn; auto]). Qed.

(** ** From tokens to characters *)

Lemma dig_text t : tok_ok t -> dig t -> is_dig (tr t) /\ tok_text t = [tr t].
Proof.
  intros Hok H. assert (Hl : lex_rune (tr t) = Some T_Digit).
  { rewrite <- H. apply tok_ok_lex; [exact Hok | |]; rewrite H; discriminate. }
  apply lex_digit in Hl. unfold in_range in Hl. apply andb_true_iff in Hl as [H1 H2].
  apply N.leb_le in H1, H2. split; [unfold is_dig; lia|].
  unfold tok_text. rewrite H. cbn. unfold encode1.
  destruct (N.ltb_spec (tr t) 128); [reflexivity | lia].
Qed.

Lemma digs_text ds : Forall tok_ok ds -> Forall dig ds ->
  ndigits (length ds) (map tr ds) /\ flat_map tok_text ds = map tr ds.
Proof.
  intros H1 H2. induction H2 as [|t ds Ht Hds IH].
  - repeat split; constructor.
  - inversion H1 as [|? ? K1 K2]; subst. destruct (dig_text t K1 Ht) as [A B]. destruct (IH K2) as [[C D] E].
    split; [split|].
    + cbn. now rewrite C.
    + constructor; assumption.
    + cbn. now rewrite B, E.
Qed.

Lemma atoi_acc_num l : Forall is_dig l -> forall a,
  atoi_acc a l = Some (fold_left (fun a c => a * 10 + (Z.of_N c - 48))%Z l a).
Proof.
  induction 1 as [|c l Hc Hl IH]; intros a; [reflexivity|].
  cbn [atoi_acc fold_left]. rewrite digit_is_digit by exact Hc. apply IH.
Qed.

Lemma int_field_num l : Forall is_dig l -> 1 <= length l <= 18 -> int_field l = (num l, None).
Proof.
  intros H Hn. unfold int_field, atoi. destruct l as [|d l]; [cbn in Hn; lia|].
  match goal with |- context [Nat.leb ?x 18] =>
    replace (Nat.leb x 18) with true by (symmetry; apply Nat.leb_le; apply Hn) end.
  rewrite (atoi_acc_num _ H). reflexivity.
Qed.

Lemma tscan_ok w : Forall tok_ok w -> forall n, Forall tok_ok (tscan n w).
Proof.
  assert (H : forall k w, length w <= k -> Forall tok_ok w -> forall n, Forall tok_ok (tscan n w)).
  { clear w. induction k as [|k IH]; intros w Hk Hw n.
    - destruct w; [constructor | cbn in Hk; lia].
    - destruct Hw as [|t w Ht Hw]; [constructor|]. cbn [length] in Hk. cbn [tscan].
      destruct n; destruct (tkind (tt t)); try (apply IH; [lia | assumption]);
        try (constructor; [assumption|]; apply IH; [lia | assumption]).
      destruct Hw; [constructor|]. cbn [length] in Hk. apply IH; [lia | assumption]. }
  intros Hw n. apply (H (length w)); auto.
Qed.

(** [skips]/[emits] pass [tok_ok] on. *)
Lemma emits_ok u ds : emits u ds -> Forall tok_ok u -> Forall tok_ok ds.
Proof.
  intros H Hu.
  unfold emits in H. specialize (H []). change (tscan 0 []) with (@nil tok) in H.
  rewrite !app_nil_r in H. rewrite <- H. now apply tscan_ok.
Qed.

Lemma num_node_text ch ds : num_node ch ds -> toks_ok ch ->
  ndigits (length ds) (map tr ds) /\ digits_text ch = map tr ds.
Proof.
  intros [H1 [H2 H3]] Hok. rewrite H3. apply digs_text; [|exact H2]. eapply emits_ok; eauto.
Qed.

(** ** Month, zone and day name: literal token sequences *)

Lemma lits_text f : Forall (fun t => exists k, t = Leaf k /\ tok_ok k /\ (45 <= tt k <= 70)%N) f ->
  emits (yields f) (yields f) /\ get_text f = map tr (yields f) /\
  to_lower (map tr (yields f)) = map (fun k => tt k + 52)%N (yields f).
Proof.
  induction 1 as [|t f [k [-> [Hk Ht]]] Hf IH].
  - split; [intros v; reflexivity | split; reflexivity].
  - destruct IH as [A [B C]]. change (Leaf k :: f) with ([Leaf k] ++ f).
    rewrite get_text_app, B, get_text_leaf, yields_app, map_app.
    assert (HL : lex_rune (tr k) = Some (tt k)).
    { apply tok_ok_lex; [exact Hk | |]; intros E; rewrite E in Ht; cbv in Ht; intuition. }
    destruct (lex_alpha _ _ Ht HL) as [L1 L2].
    assert (HK : tkind (tt k) = KOther).
    { clear - Ht. unfold tkind, memb. cbn [existsb].
      repeat match goal with |- context [N.eqb (tt k) ?x] =>
        destruct (N.eqb_spec (tt k) x) as [E|_]; [rewrite E in Ht; cbv in Ht; intuition discriminate|] end.
      reflexivity. }
    split; [|split].
    + apply emits_app; [|exact A]. cbn. apply emits_tok; rewrite HK; discriminate.
    + f_equal. cbn. unfold tok_text. destruct (N.eqb_spec (tt k) T_EOF) as [E|_].
      * rewrite E in Ht. cbv in Ht. intuition.
      * unfold encode1. destruct (N.ltb_spec (tr k) 128); [reflexivity | lia].
    + unfold to_lower in *. rewrite !map_app. f_equal; [cbn; now rewrite L2 | exact C].
Qed.

(** Letters of a rule given by literal alternatives. *)
Ltac lit_rule H Hok :=
  dinv H; split_toks;
  match goal with |- context [get_text ?f] =>
    let HF := fresh "HF" in
    assert (HF : Forall (fun t => exists k, t = Leaf k /\ tok_ok k /\ (45 <= tt k <= 70)%N) f);
    [ repeat (constructor; [eexists; split; [reflexivity|]; split; [assumption|];
        match goal with E : tt ?k = _ |- context [tt ?k] => rewrite E; vm_compute; split; discriminate end|]);
      constructor
    | apply lits_text in HF ]
  end.

Lemma month_node ch : derives (body R_month) ch -> toks_ok ch ->
  emits (yields ch) (yields ch) /\
  exists k, nth_error month_names k = Some (to_lower (map tr (yields ch))) /\
            month_value (get_text ch) = ((Z.of_nat k + 1)%Z, None).
Proof.
  intros H Hok. lit_rule H Hok; destruct HF as [A [B C]]; (split; [exact A|]);
    rewrite B, C; unfold month_value; rewrite C; cbn [yields flat_map yield app map];
    repeat match goal with E : tt _ = _ |- _ => rewrite E; clear E end.
  - exists 0; split; reflexivity.
  - exists 1; split; reflexivity.
  - exists 2; split; reflexivity.
  - exists 3; split; reflexivity.
  - exists 4; split; reflexivity.
  - exists 5; split; reflexivity.
  - exists 6; split; reflexivity.
  - exists 7; split; reflexivity.
  - exists 8; split; reflexivity.
  - exists 9; split; reflexivity.
  - exists 10; split; reflexivity.
  - exists 11; split; reflexivity.
Qed.

Lemma obsZone_node ch : derives (body R_obsZone) ch -> toks_ok ch ->
  emits (yields ch) (yields ch) /\
  exists l, zone_text (map tr (yields ch)) l /\ zone_value (get_text ch) = (l, None).
Proof.
  intros H Hok.
  assert (HZ : forall f hours, get_text f = map tr (yields f) ->
    In (to_lower (map tr (yields f)), hours) zone_names ->
    zone_value (get_text f) = (Fixed (map tr (yields f)) (hours * 3600), None) ->
    exists l, zone_text (map tr (yields f)) l /\ zone_value (get_text f) = (l, None)).
  { intros f hours B I1 Z1. eexists. split; [|exact Z1]. now apply Z_name. }
  lit_rule H Hok; destruct HF as [A [B C]]; (split; [exact A|]);
    [ apply (HZ _ 0%Z) | apply (HZ _ (0)%Z) | apply (HZ _ (0)%Z) | apply (HZ _ (-5)%Z) | apply (HZ _ (-4)%Z) | apply (HZ _ (-6)%Z) | apply (HZ _ (-5)%Z) | apply (HZ _ (-7)%Z) | apply (HZ _ (-6)%Z) | apply (HZ _ (-8)%Z) | apply (HZ _ (-7)%Z) ];
    try exact B; try (rewrite B; unfold zone_value); rewrite C;
    cbn [yields flat_map yield app map] in *;
    repeat match goal with E : tt _ = _ |- _ => rewrite E; clear E end;
    try reflexivity;
    unfold zone_names; repeat (first [left; reflexivity | right]).
Qed.

Lemma dayName_node ch : derives (body R_dayName) ch -> toks_ok ch ->
  emits (yields ch) (yields ch) /\ In (to_lower (map tr (yields ch))) day_names.
Proof.
  intros H Hok. dinv H; split_toks;
  match goal with |- context [yields ?f] =>
    assert (HF : Forall (fun t => exists k, t = Leaf k /\ tok_ok k /\ (45 <= tt k <= 70)%N) f);
    [ repeat (constructor; [eexists; split; [reflexivity|]; split; [assumption|];
        match goal with E : tt ?k = _ |- context [tt ?k] => rewrite E; vm_compute; split; discriminate end|]);
      constructor
    | apply lits_text in HF as [A [_ C]] ]
  end; (split; [exact A|]); rewrite C; cbn [yields flat_map yield app map];
    repeat match goal with E : tt _ = _ |- _ => rewrite E; clear E end.
  - now left.
  - right. now left.
  - right; right. now left.
  - do 3 right. now left.
  - do 4 right. now left.
  - do 5 right. now left.
  - do 6 right. now left.
Qed.

Lemma dayOfweek_node ch : derives (body R_dayOfweek) ch -> toks_ok ch ->
  exists dn, emits (yields ch) dn /\ In (to_lower (map tr dn)) day_names.
Proof.
  intros H Hok.
  assert (HD : forall f, derives (Nt R_dayName) f -> toks_ok f ->
    emits (yields f) (yields f) /\ In (to_lower (map tr (yields f))) day_names).
  { intros f Hf Ho. dinv Hf. rewrite yields_node. apply toks_ok_node in Ho. now apply dayName_node. }
  apply derives_alt in H as [H|H]; cbn [seqs] in H.
  - apply derives_seq in H as [f1 [f2 [-> [D1 D2]]]]. apply toks_ok_app in Hok as [K1 K2].
    destruct (HD _ D2 K2) as [A I1]. exists (yields f2). split; [|exact I1].
    rewrite yields_app. change (yields f2) with ([] ++ yields f2) at 2.
    apply emits_app; [|exact A]. now apply emits_skip, skips_opt_fws.
  - apply derives_seq in H as [f1 [f2 [-> [D1 D2]]]].
    apply derives_seq in D2 as [f3 [f4 [-> [D3 D4]]]].
    apply toks_ok_app in Hok as [K1 K2]. apply toks_ok_app in K2 as [K2 K3].
    destruct (HD _ D3 K2) as [A I1]. exists (yields f3). split; [|exact I1].
    rewrite !yields_app. replace (yields f3) with ([] ++ yields f3 ++ []) at 2
      by (cbn; apply app_nil_r).
    apply emits_app; [now apply emits_skip, skips_opt_cfws|]. apply emits_app; [exact A|].
    now apply emits_skip, skips_opt_cfws.
Qed.

Lemma offset_node ch : derives (body R_offset) ch -> toks_ok ch ->
  emits (yields ch) (yields ch) /\
  exists rep v, zone_text (map tr (yields ch)) (Fixed rep v) /\
                offset_value (get_text ch) = Some (rep, v, None).
Proof.
  intros H Hok. dinv H; split_toks;
    repeat match goal with
         | H : tt ?t = T_Digit, Ho : tok_ok ?t |- _ =>
             let A := fresh "A" in let B := fresh "B" in let E := fresh "E" in
             destruct (dig_text t Ho H) as [A B]; clear Ho;
             assert (E : emits [t] [t]) by (apply emits_tok; rewrite H; discriminate);
             rewrite ?get_text_app, ?(get_text_leaf t), ?B; clear H B
         end.
  - assert (HS : emits [t] [t]).
    { apply emits_tok; destruct H0 as [<-|[<-|[]]]; discriminate. }
    split.
    + cbn. apply (emits_app [t] [t]); [exact HS|]. apply (emits_app [t0] [t0]); [assumption|].
      apply (emits_app [t1] [t1]); [assumption|]. apply (emits_app [t2] [t2]); assumption.
    + cbn [yields flat_map yield app map]. rewrite (get_text_leaf t).
      unfold is_dig in *.
      destruct H0 as [Es|[Es|[]]].
      * assert (HL : lex_rune (tr t) = Some T_Plus).
        { rewrite Es. apply tok_ok_lex; [assumption | |]; rewrite <- Es; discriminate. }
        apply lex_plus, N.eqb_eq in HL.
        assert (HT : tok_text t = bs "+") by (unfold tok_text; rewrite <- Es, HL; reflexivity).
        rewrite HT, HL. change (43%N :: ?x) with (bs "+" ++ x).
        cbn [app]. change (bs "+" ++ tr t0 :: ?x) with (bs "+" ++ (tr t0 :: x)).
        rewrite offset_value_sign by (auto; fail). eexists _, _. split; [|reflexivity].
        change (sign_of (bs "+")) with 1%Z. rewrite Z.mul_1_l. apply Z_plus. repeat constructor; lia.
      * assert (HL : lex_rune (tr t) = Some T_Minus).
        { rewrite Es. apply tok_ok_lex; [assumption | |]; rewrite <- Es; discriminate. }
        apply lex_minus, N.eqb_eq in HL.
        assert (HT : tok_text t = bs "-") by (unfold tok_text; rewrite <- Es, HL; reflexivity).
        rewrite HT, HL. change (45%N :: ?x) with (bs "-" ++ x).
        cbn [app]. change (bs "-" ++ tr t0 :: ?x) with (bs "-" ++ (tr t0 :: x)).
        rewrite offset_value_sign by (auto; fail). eexists _, _. split; [|reflexivity].
        change (sign_of (bs "-")) with (-1)%Z.
        match goal with |- zone_text _ (Fixed _ (-1 * ?x)%Z) => replace (-1 * x)%Z with (- x)%Z by ring end.
        apply Z_minus. repeat constructor; lia.
  - split.
    + cbn. apply (emits_app [t] [t]); [assumption|]. apply (emits_app [t0] [t0]); [assumption|].
      apply (emits_app [t1] [t1]); assumption.
    + cbn [yields flat_map yield app map]. unfold is_dig in *.
      change (get_text []) with (@nil byte). cbn [app].
      rewrite offset_value_nosign, offset_value_sign by (auto; fail). eexists _, _.
      split; [|reflexivity].
      change (sign_of (bs "+")) with 1%Z. rewrite Z.mul_1_l. apply Z_nosign. repeat constructor; lia.
Qed.

(** ** The walker on the parts of a date-time *)

Lemma dt_ignores d mo y h mi s l : ignores_ws (NDateTime d mo y h mi s l).
Proof. repeat split. Qed.

Lemma give_closed p : match p with
  | NDay _ | NMonth _ | NYear _ | NHour _ | NMinute _ | NSecond _ | NOffset _ _ | NObsZone _
  | NAtom _ | NDotAtom _ | NDomainLiteral _ | NEncodedWord _ | NFws _ | NPort _ | NQtext _
  | NQuotedChar _ | NUnspaced _ => forall n, give p n = p
  | _ => True end.
Proof. destruct p; try exact I; intros []; reflexivity. Qed.

Lemma feed_day e ch d mo y h mi s l :
  feed e (NDateTime d mo y h mi s l) (Node R_day ch) =
  NDateTime (fst (int_field (digits_text ch))) mo y h mi s l.
Proof.
  cbn [feed enter_node]. fold (feeds e (NDay (fst (int_field (digits_text ch)))) ch).
  rewrite (feeds_closed e (NDay _) ch (give_closed (NDay _))). reflexivity.
Qed.

Lemma feed_month e ch d mo y h mi s l :
  feed e (NDateTime d mo y h mi s l) (Node R_month ch) =
  NDateTime d (fst (month_value (get_text ch))) y h mi s l.
Proof.
  cbn [feed enter_node]. fold (feeds e (NMonth (fst (month_value (get_text ch)))) ch).
  rewrite (feeds_closed e (NMonth _) ch (give_closed (NMonth _))). reflexivity.
Qed.

Lemma feed_year e ch d mo y h mi s l :
  feed e (NDateTime d mo y h mi s l) (Node R_year ch) =
  NDateTime d mo (fst (year_value (now_year e) (digits_text ch))) h mi s l.
Proof.
  cbn [feed enter_node]. fold (feeds e (NYear (fst (year_value (now_year e) (digits_text ch)))) ch).
  rewrite (feeds_closed e (NYear _) ch (give_closed (NYear _))). reflexivity.
Qed.

Lemma feed_hour e ch d mo y h mi s l :
  feed e (NDateTime d mo y h mi s l) (Node R_hour ch) =
  NDateTime d mo y (fst (int_field (digits_text ch))) mi s l.
Proof.
  cbn [feed enter_node]. fold (feeds e (NHour (fst (int_field (digits_text ch)))) ch).
  rewrite (feeds_closed e (NHour _) ch (give_closed (NHour _))). reflexivity.
Qed.

Lemma feed_minute e ch d mo y h mi s l :
  feed e (NDateTime d mo y h mi s l) (Node R_minute ch) =
  NDateTime d mo y h (fst (int_field (digits_text ch))) s l.
Proof.
  cbn [feed enter_node]. fold (feeds e (NMinute (fst (int_field (digits_text ch)))) ch).
  rewrite (feeds_closed e (NMinute _) ch (give_closed (NMinute _))). reflexivity.
Qed.

Lemma feed_second e ch d mo y h mi s l :
  feed e (NDateTime d mo y h mi s l) (Node R_second ch) =
  NDateTime d mo y h mi (fst (int_field (digits_text ch))) l.
Proof.
  cbn [feed enter_node]. fold (feeds e (NSecond (fst (int_field (digits_text ch)))) ch).
  rewrite (feeds_closed e (NSecond _) ch (give_closed (NSecond _))). reflexivity.
Qed.

Lemma zone_node e ch : derives (body R_zone) ch -> toks_ok ch ->
  exists zs l, emits (yields ch) zs /\ zone_text (map tr zs) l /\
    forall d mo y h mi s l0,
      feed e (NDateTime d mo y h mi s l0) (Node R_zone ch) = NDateTime d mo y h mi s l.
Proof.
  intros H Hok. apply derives_alt in H as [H|H].
  - cbn [seqs] in H. apply derives_seq in H as [f1 [f2 [-> [D1 D2]]]]. dinv D1. dinv D2.
    apply toks_ok_app in Hok as [K1 K2]. apply toks_ok_node in K1, K2.
    destruct (offset_node ch0 D2 K2) as [A [rep [v [HZ HV]]]].
    exists (yields ch0), (Fixed rep v). split; [|split; [exact HZ|]].
    + rewrite yields_app, !yields_node. change (yields ch0) with ([] ++ yields ch0) at 2.
      apply emits_app; [|exact A]. now apply emits_skip, skips_fws.
    + intros. cbn [feed enter_node]. fold (feeds e (NZone UTC) ([Node R_fws ch] ++ [Node R_offset ch0])).
      rewrite feeds_app.
      rewrite (feeds_quiet e (NZone UTC) (Nt R_fws) [Node R_fws ch]);
        [|repeat split | now constructor | reflexivity].
      cbn [feeds fold_left feed enter_node]. rewrite HV.
      fold (feeds e (NOffset rep v) ch0).
      rewrite (feeds_closed e (NOffset _ _) ch0 (give_closed (NOffset _ _))). reflexivity.
  - dinv H. apply toks_ok_node in Hok.
    destruct (obsZone_node ch0 H Hok) as [A [l [HZ HV]]].
    exists (yields ch0), l. rewrite yields_node. split; [exact A|]. split; [exact HZ|].
    intros. cbn [feed enter_node fold_left]. rewrite HV. cbn [fst].
    fold (feeds e (NObsZone l) ch0).
    rewrite (feeds_closed e (NObsZone _) ch0 (give_closed (NObsZone _))). reflexivity.
Qed.

Lemma feeds_one e p t : feeds e p [t] = feed e p t.
Proof. reflexivity. Qed.

Lemma ndigits_num n l : ndigits n l -> 1 <= n <= 18 -> int_field l = (num l, None).
Proof. intros [<- H] Hn. now apply int_field_num. Qed.

Lemma year_value_num now n l : ndigits n l -> 1 <= n <= 18 ->
  fst (year_value now l) = year_num now l.
Proof.
  intros H Hn. unfold year_value, year_num. rewrite (ndigits_num n) by assumption. cbn [fst].
  change byte with rune. destruct (Nat.eqb (length l) 2); [|reflexivity].
  destruct (Z.rem now 100 <? num l)%Z; ring.
Qed.

Theorem date_tree e ch : derives (body R_dateTime) ch -> toks_ok ch ->
  exists u k d, yields ch = u ++ [k] /\ tt k = T_EOF /\
    map tr (tscan 0 u) = spell d /\ denotes (now_year e) d (time_value e ch).
Proof.
  intros H Hok. change (body R_dateTime) with g_dateTime in H. unfold g_dateTime in H. cbn [seqs] in H.
  apply derives_seq in H as [f1 [f2 [-> [D1 H]]]].
  apply derives_seq in H as [f3 [f4 [-> [D3 H]]]].
  apply derives_seq in H as [f5 [f6 [-> [D5 H]]]].
  apply derives_seq in H as [f7 [f8 [-> [D7 H]]]].
  apply derives_seq in H as [f9 [f10 [-> [D9 H]]]].
  apply derives_seq in H as [f11 [f12 [-> [D11 H]]]].
  apply derives_seq in H as [f13 [f14 [-> [D13 H]]]].
  apply derives_seq in H as [f15 [f16 [-> [D15 H]]]].
  apply derives_seq in H as [f17 [f18 [-> [D17 H]]]].
  apply derives_seq in H as [f19 [f20 [-> [D19 H]]]].
  repeat match goal with K : toks_ok (_ ++ _) |- _ => apply toks_ok_app in K as [? ?] end.
  dinv D3. dinv D5. dinv D7. dinv D9. dinv D11. dinv D13. dinv H.
  repeat match goal with K : toks_ok [Node _ _] |- _ => apply toks_ok_node in K end.
  (* day name *)
  assert (P1 : exists dn c1, emits (yields f1) (dn ++ c1) /\
     (dn = [] /\ c1 = [] \/ In (to_lower (map tr dn)) day_names /\ map tr c1 = bs ",") /\
     forall d mo y h mi s l, feeds e (NDateTime d mo y h mi s l) f1 = NDateTime d mo y h mi s l).
  { apply derives_opt in D1 as [D1| ->].
    - cbn [seqs] in D1. apply derives_seq in D1 as [g1 [g2 [-> [A1 A2]]]]. dinv A1. dinv A2.
      match goal with K : toks_ok (_ ++ _) |- _ => apply toks_ok_app in K as [K1 K2] end.
      apply toks_ok_node in K1. apply toks_ok_leaf in K2.
      destruct (dayOfweek_node _ A1 K1) as [dn [E1 I1]].
      destruct A2 as [A2|[]]. symmetry in A2.
      exists dn, [t1]. split; [|split].
      + rewrite yields_app, yields_node. apply emits_app; [exact E1|].
        eapply emits_leaf; [exact A2 | reflexivity].
      + right. split; [exact I1|].
        assert (HL : lex_rune (tr t1) = Some T_Comma).
        { rewrite <- A2. apply tok_ok_lex; [exact K2 | |]; rewrite A2; discriminate. }
        assert (HC : forall r, lex_rune r = Some T_Comma -> (r =? 44)%N = true) by (intros r; lex_cases).
        apply HC, N.eqb_eq in HL. cbn. now rewrite HL.
      + intros. rewrite feeds_app.
        rewrite (feeds_quiet e _ (Nt R_dayOfweek) [Node R_dayOfweek _]);
          [reflexivity | apply dt_ignores | now constructor | reflexivity].
    - exists [], []. split; [|split; [now left|reflexivity]]. intros v. reflexivity. }
  destruct P1 as [dn [c1 [E1 [C1 F1]]]].
  destruct (day_num _ D3) as [dd [Nd Ld]].
  destruct (num_node_text _ _ Nd ltac:(assumption)) as [Td Xd].
  destruct (month_node _ D5 ltac:(assumption)) as [Em [km [Km Vm]]].
  destruct (year_num_node _ D7) as [dy [Ny Ly]].
  destruct (num_node_text _ _ Ny ltac:(assumption)) as [Ty Xy].
  destruct (hour_num _ D9) as [dh [Nh Lh]].
  destruct (num_node_text _ _ Nh ltac:(assumption)) as [Th Xh].
  destruct (minute_num _ D13) as [dm [Nm Lm]].
  destruct (num_node_text _ _ Nm ltac:(assumption)) as [Tm Xm].
  (* seconds *)
  assert (P15 : exists c2 ds, emits (yields f15) (c2 ++ ds) /\
     (c2 = [] /\ ds = [] \/ map tr c2 = bs ":" /\ ndigits 2 (map tr ds)) /\
     forall d mo y h mi l, feeds e (NDateTime d mo y h mi 0 l) f15 =
                           NDateTime d mo y h mi (num (map tr ds)) l).
  { apply derives_opt in D15 as [D15| ->].
    - cbn [seqs] in D15. apply derives_seq in D15 as [g1 [g2 [-> [A1 A2]]]]. dinv A1. dinv A2.
      match goal with K : toks_ok (_ ++ _) |- _ => apply toks_ok_app in K as [K1 K2] end.
      apply toks_ok_leaf in K1. apply toks_ok_node in K2.
      destruct (second_num _ A2) as [ds [Ns Ls]].
      destruct (num_node_text _ _ Ns K2) as [Ts Xs].
      destruct A1 as [A1|[]]. symmetry in A1.
      exists [t1], ds. split; [|split].
      + rewrite yields_app, yields_node. apply emits_app; [|apply Ns].
        eapply emits_leaf; [exact A1 | reflexivity].
      + right. rewrite Ls in Ts. split; [|exact Ts].
        assert (HL : lex_rune (tr t1) = Some T_Colon).
        { rewrite <- A1. apply tok_ok_lex; [exact K1 | |]; rewrite A1; discriminate. }
        assert (HC : forall r, lex_rune r = Some T_Colon -> (r =? 58)%N = true) by (intros r; lex_cases).
        apply HC, N.eqb_eq in HL. cbn. now rewrite HL.
      + intros. rewrite feeds_app. change (feeds e ?p [Leaf t1]) with p. rewrite feeds_one, feed_second.
        rewrite Xs, (ndigits_num _ _ Ts) by lia. reflexivity.
    - exists [], []. split; [|split; [now left|reflexivity]]. intros v. reflexivity. }
  destruct P15 as [c2 [ds [E15 [C15 F15]]]].
  (* zone *)
  assert (P17 : exists zs l, emits (yields f17) zs /\ zone_text (map tr zs) l /\
     forall d mo y h mi s, feeds e (NDateTime d mo y h mi s UTC) f17 = NDateTime d mo y h mi s l).
  { apply derives_opt in D17 as [D17| ->].
    - dinv D17. match goal with K : toks_ok [Node R_zone _] |- _ => apply toks_ok_node in K end.
      destruct (zone_node e _ D17 ltac:(assumption)) as [zs [l [A [Bz Cz]]]].
      exists zs, l. rewrite yields_node. split; [exact A|]. split; [exact Bz|].
      intros. rewrite feeds_one. apply Cz.
    - exists [], UTC. split; [intros v; reflexivity|]. split; [constructor | reflexivity]. }
  destruct P17 as [zs [lz [E17 [C17 F17]]]].
  destruct D11 as [D11|[]]. symmetry in D11. destruct H as [H|[]]. symmetry in H.
  assert (Ht : tr t = 58%N).
  { match goal with K : toks_ok [Leaf t] |- _ => apply toks_ok_leaf in K; rename K into Kt end.
    assert (HL : lex_rune (tr t) = Some T_Colon).
    { rewrite <- D11. apply tok_ok_lex; [exact Kt | |]; rewrite D11; discriminate. }
    assert (HC : forall r, lex_rune r = Some T_Colon -> (r =? 58)%N = true) by (intros r; lex_cases).
    now apply HC, N.eqb_eq in HL. }
  exists (yields f1 ++ yields ch ++ yields ch0 ++ yields ch1 ++ yields ch2 ++ [t] ++ yields ch3 ++
          yields f15 ++ yields f17 ++ yields f19), t0.
  exists (mkDate (map tr dn) (map tr dd) (map tr (yields ch0)) (map tr dy) (map tr dh) (map tr dm)
            (map tr ds) (map tr zs)).
  split; [|split; [exact H|split]].
  - rewrite !yields_app, !yields_node. rewrite <- !app_assoc. reflexivity.
  - assert (EU : emits (yields f1 ++ yields ch ++ yields ch0 ++ yields ch1 ++ yields ch2 ++ [t] ++
          yields ch3 ++ yields f15 ++ yields f17 ++ yields f19)
       ((dn ++ c1) ++ dd ++ yields ch0 ++ dy ++ dh ++ [t] ++ dm ++ (c2 ++ ds) ++ zs ++ [])).
    { repeat apply emits_app; auto; try apply Nd; try apply Ny; try apply Nh; try apply Nm.
      - apply (emits_leaf t T_Colon D11 eq_refl).
      - now apply emits_skip, skips_opt_cfws. }
    specialize (EU []). rewrite app_nil_r in EU. rewrite EU. change (tscan 0 []) with (@nil tok).
    rewrite !app_nil_r, !map_app. unfold spell. cbn [d_dow d_day d_mon d_year d_hour d_min d_sec d_zone].
    cbn [map]. rewrite Ht. change [58%N] with (bs ":").
    f_equal; [|do 6 f_equal].
    + destruct C1 as [[-> ->]|[I1 ->]]; [reflexivity|].
      destruct (map tr dn) eqn:E; [|reflexivity].
      exfalso. clear - I1. cbn in I1. intuition discriminate.
    + f_equal. destruct C15 as [[-> ->]|[-> N2]]; [reflexivity|].
      destruct (map tr ds) eqn:E; [|reflexivity]. destruct N2; discriminate.
  - unfold denotes. cbn [d_dow d_day d_mon d_year d_hour d_min d_sec d_zone].
    rewrite Lm in Tm.
    split; [destruct C1 as [[-> _]|[I1 _]]; auto|].
    split; [destruct Ld as [E|E]; rewrite E in Td; auto|].
    split; [destruct Ly as [E|E]; rewrite E in Ty; auto|].
    split; [destruct Lh as [E|E]; rewrite E in Th; auto|].
    split; [exact Tm|].
    split; [destruct C15 as [[_ ->]|[_ N2]]; auto|].
    exists km, lz. split; [exact Km|]. split; [exact C17|].
    unfold time_value. rewrite feeds_app, F1, feeds_app, feeds_one, feed_day, feeds_app, feeds_one,
      feed_month, feeds_app, feeds_one, feed_year, feeds_app, feeds_one, feed_hour, feeds_app.
    change (feeds e ?p [Leaf t]) with p.
    rewrite feeds_app, feeds_one, feed_minute, feeds_app, F15, feeds_app, F17, feeds_app.
    rewrite (feeds_quiet e _ _ f19 (dt_ignores _ _ _ _ _ _ _) D19 eq_refl).
    change (feeds e ?p [Leaf t0]) with p. cbn iota.
    rewrite Xd, Xy, Xh, Xm, Vm.
    rewrite (ndigits_num _ _ Td), (ndigits_num _ _ Th), (ndigits_num _ _ Tm) by lia.
    rewrite (year_value_num _ _ _ Ty) by lia. reflexivity.
Qed.
