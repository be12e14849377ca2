(** Facts about UTF-8 decoding and encoding (Utf8.v). *)
From Coq Require Import List NArith ZArith Bool Arith Lia.
From Verif Require Import Lexer Utf8.
Import ListNotations.
Local Open Scope N_scope.
Ltac Zify.zify_post_hook ::= Z.to_euclidean_division_equations.

Definition ascii (c : N) : Prop := c < 128.

(** length arithmetic, with the aliases of N unfolded *)
Ltac len := unfold gostring, byte, rune in *; cbn [length] in *; repeat match goal with
    | H : context [length (_ ++ _)] |- _ => rewrite app_length in H
    | |- context [length (_ ++ _)] => rewrite app_length
    end; cbn [length] in *; lia.

Lemma in_range_spec lo hi r : in_range lo hi r = true <-> lo <= r <= hi.
Proof. unfold in_range. rewrite andb_true_iff, !N.leb_le. tauto. Qed.

Ltac brange :=
  repeat match goal with
         | H : in_range _ _ _ = true |- _ => apply in_range_spec in H
         | H : (_ && _)%bool = true |- _ => apply andb_true_iff in H as [? ?]
         | H : cont _ = true |- _ => unfold cont in H
         | H : (_ <? _) = true |- _ => apply N.ltb_lt in H
         | H : (_ <? _) = false |- _ => apply N.ltb_ge in H
         end.

(** [decode1] consumes a prefix. *)
Lemma decode1_suffix b0 s r s1 : decode1 b0 s = (r, s1) ->
  exists p, s = p ++ s1 /\ (length p <= 3)%nat.
Proof.
  unfold decode1.
  repeat match goal with
         | |- context [if ?b then _ else _] => destruct b eqn:?
         | |- context [match ?l with [] => _ | _ => _ end] => destruct l
         end; intros H; injection H as <- <-;
    first [ now exists [] | eexists [_]; split; [reflexivity | cbn; lia]
          | eexists [_; _]; split; [reflexivity | cbn; lia]
          | eexists [_; _; _]; split; [reflexivity | cbn; lia]
          | exists []; split; [reflexivity | cbn; lia] ].
Qed.

Lemma decode_fuel_enough n : forall s, (length s <= n)%nat -> decode_fuel n s = decode s.
Proof.
  assert (H : forall n m s, (length s <= n)%nat -> (length s <= m)%nat -> decode_fuel n s = decode_fuel m s).
  { clear n. induction n as [|n IH]; intros m s Hn Hm.
    - destruct s; [destruct m; reflexivity | cbn in Hn; lia].
    - destruct m; [destruct s; [reflexivity | cbn in Hm; lia]|].
      destruct s as [|b s]; [reflexivity|]. cbn [decode_fuel].
      destruct (decode1 b s) as [r s1] eqn:E. f_equal.
      apply decode1_suffix in E as [p [-> _]]. cbn [length] in *. rewrite app_length in *.
      apply IH; lia. }
  intros s Hs. now apply H.
Qed.

Lemma decode_cons b s : decode (b :: s) = let '(r, s1) := decode1 b s in r :: decode s1.
Proof.
  unfold decode at 1. cbn [length decode_fuel]. destruct (decode1 b s) as [r s1] eqn:E.
  f_equal. apply decode1_suffix in E as [p [-> _]]. apply decode_fuel_enough.
  rewrite app_length. lia.
Qed.

Lemma decode_nil : decode [] = [].
Proof. reflexivity. Qed.

Lemma decode_ascii c s : ascii c -> decode (c :: s) = c :: decode s.
Proof.
  intros H. rewrite decode_cons. unfold decode1. destruct (N.ltb_spec c 128); [reflexivity|].
  unfold ascii in H. lia.
Qed.

Lemma decode_app_ascii a b : Forall ascii a -> decode (a ++ b) = a ++ decode b.
Proof.
  induction 1 as [|c a Hc Ha IH]; [reflexivity|]. cbn [app]. rewrite decode_ascii by assumption.
  now rewrite IH.
Qed.

Lemma decode_all_ascii a : Forall ascii a -> decode a = a.
Proof. intros H. rewrite <- (app_nil_r a) at 1. rewrite decode_app_ascii by assumption. apply app_nil_r. Qed.

(** An ASCII byte is never part of a longer sequence. *)
Lemma decode1_ascii_stop b s c t : ascii c ->
  decode1 b (s ++ c :: t) = let '(r, s1) := decode1 b s in (r, s1 ++ c :: t).
Proof.
  unfold ascii. intros Hc.
  assert (H0 : cont c = false).
  { unfold cont, in_range. apply andb_false_iff. rewrite !N.leb_gt. lia. }
  assert (H1 : forall hi, in_range 160 hi c = false).
  { intros. unfold in_range. apply andb_false_iff. rewrite !N.leb_gt. lia. }
  assert (H2 : forall hi, in_range 128 hi c = false).
  { intros. unfold in_range. apply andb_false_iff. rewrite !N.leb_gt. lia. }
  assert (H3 : forall hi, in_range 144 hi c = false).
  { intros. unfold in_range. apply andb_false_iff. rewrite !N.leb_gt. lia. }
  unfold decode1. destruct (b <? 128); [reflexivity|].
  destruct (in_range 194 223 b).
  { destruct s as [|b1 s]; cbn [app]; [rewrite H0; reflexivity|]. destruct (cont b1); reflexivity. }
  destruct (in_range 224 239 b).
  { destruct s as [|b1 [|b2 s]]; cbn [app].
    - destruct t; [reflexivity|]. destruct (b =? 224); rewrite ?H1, ?H2; reflexivity.
    - rewrite H0, andb_false_r. reflexivity.
    - destruct (_ && _)%bool; reflexivity. }
  destruct (in_range 240 244 b); [|reflexivity].
  destruct s as [|b1 [|b2 [|b3 s]]]; cbn [app].
  - destruct t as [|t1 [|t2 t]]; try reflexivity. destruct (b =? 240); rewrite ?H3, ?H2; reflexivity.
  - destruct t as [|t1 t]; try reflexivity. rewrite H0, andb_false_r. reflexivity.
  - rewrite H0, !andb_false_r. reflexivity.
  - destruct (_ && _)%bool; reflexivity.
Qed.

Lemma decode_split a c b : ascii c -> decode (a ++ c :: b) = decode a ++ c :: decode b.
Proof.
  intros Hc.
  assert (H : forall n a, (length a <= n)%nat -> decode (a ++ c :: b) = decode a ++ c :: decode b).
  { clear a. induction n as [|n IH]; intros a Ha.
    - destruct a; [|cbn in Ha; lia]. now apply decode_ascii.
    - destruct a as [|x a]; [now apply decode_ascii|]. cbn [app]. rewrite !decode_cons.
      rewrite decode1_ascii_stop by assumption. destruct (decode1 x a) as [r s1] eqn:E.
      cbn [app]. f_equal. apply IH. apply decode1_suffix in E as [p [-> _]]. len. }
  apply (H (length a)). lia.
Qed.

(** Valid runes: what []rune(s) can contain. *)
Definition valid_rune (r : rune) : Prop := r < 55296 \/ 57344 <= r <= 1114111.

Definition bytes (s : gostring) : Prop := Forall (fun b => b < 256) s.

Lemma decode1_valid b s r s1 : b < 256 -> bytes s -> decode1 b s = (r, s1) -> valid_rune r.
Proof.
  intros Hb Hs. unfold decode1, valid_rune, rune_error.
  repeat match goal with
         | |- context [if ?b then _ else _] => destruct b eqn:?
         | |- context [match ?l with [] => _ | _ => _ end] => destruct l
         end; intros H; injection H as <- <-; brange; try lia.
  all: repeat match goal with H : context [if ?b then _ else _] |- _ => destruct b eqn:? end;
    rewrite ?N.eqb_eq, ?N.eqb_neq in *; lia.
Qed.

Lemma decode_valid s : bytes s -> Forall valid_rune (decode s).
Proof.
  assert (H : forall n s, (length s <= n)%nat -> bytes s -> Forall valid_rune (decode s)).
  { clear s. induction n as [|n IH]; intros s Hn Hs.
    - destruct s; [constructor | cbn in Hn; lia].
    - destruct s as [|b s]; [constructor|]. rewrite decode_cons. inversion Hs; subst.
      destruct (decode1 b s) as [r s1] eqn:E. constructor; [eapply decode1_valid; eauto|].
      apply decode1_suffix in E as [p [-> _]].
      apply IH; [len|]. apply Forall_app in H2. apply H2. }
  apply (H (length s)). lia.
Qed.

Ltac cons_inj E :=
  match type of E with
  | ?x :: ?l = ?b :: ?t =>
      assert (b = x) by congruence; assert (t = l) by congruence; subst b t; clear E
  end.

Lemma decode1_encode r s b t : valid_rune r -> encode1 r ++ s = b :: t -> decode1 b t = (r, s).
Proof.
  unfold valid_rune, encode1. intros Hr.
  destruct (N.ltb_spec r 128).
  { cbn [app]. intros E. cons_inj E. unfold decode1.
    destruct (N.ltb_spec r 128); [reflexivity | lia]. }
  destruct (N.ltb_spec r 2048).
  { cbn [app]. intros E. cons_inj E. unfold decode1.
    destruct (N.ltb_spec (192 + r / 64) 128); [lia|].
    replace (in_range 194 223 (192 + r / 64)) with true by (symmetry; apply in_range_spec; lia).
    replace (cont (128 + r mod 64)) with true by (symmetry; apply in_range_spec; lia).
    f_equal. lia. }
  replace (in_range 55296 57343 r || (1114111 <? r))%bool with false.
  2:{ symmetry. apply orb_false_iff. split; [|apply N.ltb_ge; lia].
      unfold in_range. apply andb_false_iff. rewrite !N.leb_gt. lia. }
  destruct (N.ltb_spec r 65536).
  { cbn [app]. intros E. cons_inj E. unfold decode1.
    destruct (N.ltb_spec (224 + r / 4096) 128); [lia|].
    replace (in_range 194 223 (224 + r / 4096)) with false.
    2:{ symmetry. unfold in_range. apply andb_false_iff. rewrite !N.leb_gt. lia. }
    replace (in_range 224 239 (224 + r / 4096)) with true by (symmetry; apply in_range_spec; lia).
    replace (cont (128 + r mod 64)) with true by (symmetry; apply in_range_spec; lia).
    rewrite andb_true_r.
    replace (in_range (if 224 + r / 4096 =? 224 then 160 else 128) (if 224 + r / 4096 =? 237 then 159 else 191)
               (128 + (r / 64) mod 64)) with true.
    - f_equal. lia.
    - symmetry. apply in_range_spec.
      destruct (N.eqb_spec (224 + r / 4096) 224); destruct (N.eqb_spec (224 + r / 4096) 237); lia. }
  cbn [app]. intros E. cons_inj E. unfold decode1.
  destruct (N.ltb_spec (240 + r / 262144) 128); [lia|].
  replace (in_range 194 223 (240 + r / 262144)) with false.
  2:{ symmetry. unfold in_range. apply andb_false_iff. rewrite !N.leb_gt. lia. }
  replace (in_range 224 239 (240 + r / 262144)) with false.
  2:{ symmetry. unfold in_range. apply andb_false_iff. rewrite !N.leb_gt. lia. }
  replace (in_range 240 244 (240 + r / 262144)) with true by (symmetry; apply in_range_spec; lia).
  replace (cont (128 + r mod 64)) with true by (symmetry; apply in_range_spec; lia).
  replace (cont (128 + (r / 64) mod 64)) with true by (symmetry; apply in_range_spec; lia).
  rewrite !andb_true_r.
  replace (in_range (if 240 + r / 262144 =? 240 then 144 else 128) (if 240 + r / 262144 =? 244 then 143 else 191)
             (128 + (r / 4096) mod 64)) with true.
  - f_equal. lia.
  - symmetry. apply in_range_spec.
    destruct (N.eqb_spec (240 + r / 262144) 240); destruct (N.eqb_spec (240 + r / 262144) 244); lia.
Qed.

Lemma encode1_cons r : exists b t, encode1 r = b :: t.
Proof.
  unfold encode1. repeat match goal with |- context [if ?b then _ else _] => destruct b end; eauto.
Qed.

Lemma decode_encode rs s : Forall valid_rune rs -> decode (encode rs ++ s) = rs ++ decode s.
Proof.
  induction 1 as [|r rs Hr Hrs IH]; [reflexivity|]. unfold encode in *. cbn [flat_map].
  destruct (encode1_cons r) as [b [t E]]. rewrite <- app_assoc.
  assert (D : decode1 b (t ++ flat_map encode1 rs ++ s) = (r, flat_map encode1 rs ++ s)).
  { apply decode1_encode; [assumption|]. rewrite E. reflexivity. }
  rewrite E. cbn [app]. rewrite decode_cons, D, IH. reflexivity.
Qed.

Lemma decode_encode_all rs : Forall valid_rune rs -> decode (encode rs) = rs.
Proof. intros H. rewrite <- (app_nil_r (encode rs)), decode_encode by assumption. apply app_nil_r. Qed.

Lemma encode_app a b : encode (a ++ b) = encode a ++ encode b.
Proof. apply flat_map_app. Qed.

Lemma encode_ascii a : Forall ascii a -> encode a = a.
Proof.
  induction 1 as [|c a Hc Ha IH]; [reflexivity|]. unfold encode in *. cbn [flat_map].
  rewrite IH. unfold encode1. destruct (N.ltb_spec c 128); [reflexivity | unfold ascii in Hc; lia].
Qed.
