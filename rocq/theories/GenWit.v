(** A runtime that meets the assumptions made about the ANTLR runtime (GenRun.runtime_ok): the assumptions
    can be met, and the generated functions can be run. *)
From Coq Require Import List NArith ZArith Bool Arith Lia FMapPositive.
From Verif Require Import Lexer Grammar Parser Spec ParserFacts Static Cfws First GenSyntax GenAtn GenCode GenRun GenShape GenNet GenCheck GenFacts.
Import ListNotations.

(** ** Prediction: the first alternative from which the rest of the input can be read *)
Definition finishes (t : N) (st : list N) (w : word) : bool :=
  accepts ((S (length w)) * B) (resd t ++ flat_map resd (map return_state st)) w.

Definition try_alt (d : N) (st : list N) (w : word) (i : nat) : bool :=
  match alternative d i with Some t => finishes t st w | None => false end.

Definition first_alt (d : N) (st : list N) (w : word) : option nat := find (try_alt d st w) (seq 1 (length (alternatives d))).

Lemma wfg_resd s : forallb wfg (resd s) = true.
Proof.
  assert (C : for_states (fun _ k => forallb wfg k) = true) by (vm_compute; reflexivity).
  unfold resd. destruct (GenShape.res s) as [k|] eqn:E; [|reflexivity]. exact (for_states_spec _ C s k E).
Qed.

Lemma wfg_resds S : forallb wfg (flat_map resd S) = true.
Proof. induction S as [|s S IH]; [reflexivity|]. cbn [flat_map]. rewrite forallb_app, wfg_resd, IH. reflexivity. Qed.

Lemma finishes_spec t st w : finishes t st w = true <-> path t (map return_state st) w.
Proof.
  unfold finishes. rewrite path_iff_all. apply accepts_spec; [|apply le_n]. rewrite forallb_app, wfg_resd, wfg_resds. reflexivity.
Qed.

Lemma try_alt_spec d st w i : try_alt d st w i = true <-> can_finish d st w i.
Proof.
  unfold try_alt, can_finish. destruct (alternative d i) as [t|].
  - rewrite finishes_spec. split; [intros H; exists t; auto | intros (t' & [= <-] & H); exact H].
  - split; [discriminate | intros (t' & [=] & _)].
Qed.

Lemma find_seq p n : forall a, match find p (seq a n) with
  | Some i => a <= i < a + n /\ p i = true /\ forall j, a <= j < i -> p j = false
  | None => forall j, a <= j < a + n -> p j = false end.
Proof.
  induction n as [|n IH]; intros a; cbn [seq find]; [intros; lia|]. destruct (p a) eqn:E.
  - split; [lia|]. split; [exact E|]. intros; lia.
  - specialize (IH (S a)). destruct (find p (seq (S a) n)) as [i|].
    + destruct IH as (H1 & H2 & H3). split; [lia|]. split; [exact H2|]. intros j Hj. destruct (Nat.eq_dec j a) as [->|]; [exact E | apply H3; lia].
    + intros j Hj. destruct (Nat.eq_dec j a) as [->|]; [exact E | apply IH; lia].
Qed.

Lemma can_finish_range d st w i : can_finish d st w i -> 1 <= i < 1 + length (alternatives d).
Proof.
  intros (t & E & _). destruct i as [|j]; [discriminate|]. unfold alternative in E.
  destruct (nth_error (alternatives d) j) as [e|] eqn:En; [|discriminate].
  assert (nth_error (alternatives d) j <> None) as Q by congruence. apply nth_error_Some in Q. lia.
Qed.

(** ** Sync: the next token does not fit what remains, which cannot be skipped either *)
Definition sync_test (n : N) (t : ttype) : bool :=
  match GenShape.res n with Some k => negb (forallb nullable k || memb t (firstk k [])) | None => false end.

Lemma first_nt r t : In t (first (body r)) -> In t (first (Nt r)).
Proof. intros H. eapply subset_In; [apply first_table_ok | exact H]. Qed.

Lemma null_nt r : nullable (body r) = true -> nullable (Nt r) = true.
Proof. intros H. pose proof (null_table_ok r) as Q. rewrite H in Q. exact Q. Qed.

Lemma firstk_cons g k a t : In t (firstk (g :: k) a) <-> In t (first g) \/ nullable g = true /\ In t (firstk k a).
Proof.
  cbn [firstk]. destruct (nullable g).
  - rewrite union_In. split; [intros [H|H]; auto | intros [H|[_ H]]; auto].
  - split; [auto | intros [H|[[=] _]]; exact H].
Qed.

Lemma first_seq x y : first (Seq x y) = if nullable x then union (first x) (first y) else first x.
Proof. reflexivity. Qed.

Lemma nullable_seq x y : nullable (Seq x y) = nullable x && nullable y.
Proof. reflexivity. Qed.

Lemma firstk_norm g : forall k a t, In t (firstk (norm g ++ k) a) -> In t (firstk (g :: k) a).
Proof.
  induction g as [ts| |r|x IHx y IHy|x IHx y IHy|x IHx]; intros k a t H; try exact H.
  - apply firstk_cons. right. split; [reflexivity | exact H].
  - cbn [norm] in H. rewrite <- app_assoc in H. apply IHx in H. apply firstk_cons in H. apply firstk_cons. rewrite first_seq, nullable_seq.
    destruct H as [H|[H1 H2]].
    + left. destruct (nullable x); [apply union_In; left|]; exact H.
    + apply IHy in H2. apply firstk_cons in H2. rewrite H1. destruct H2 as [H2|[H2 H3]].
      * left. apply union_In. right. exact H2.
      * right. rewrite H2. split; [reflexivity | exact H3].
Qed.

Lemma nullable_norm g k : forallb nullable (norm g ++ k) = nullable g && forallb nullable k.
Proof.
  revert k. induction g as [ts| |r|x IHx y IHy|x IHx y IHy|x IHx]; intros k; try reflexivity.
  cbn [norm]. rewrite <- app_assoc, IHx, IHy. unfold nullable. cbn [nullable_t]. rewrite andb_assoc. reflexivity.
Qed.

Lemma flats_first g x t : In x (flats g) -> In t (first x) -> In t (first g).
Proof.
  induction g as [ts| |r|a IHa b IHb|a IHa b IHb|a IHa]; cbn [flats]; intros Hx Ht; try (destruct Hx as [<-|[]]; exact Ht).
  apply in_app_or in Hx. unfold first in *. cbn [first_t]. apply union_In. destruct Hx; [left | right]; auto.
Qed.

Lemma flats_null g x : In x (flats g) -> nullable x = true -> nullable g = true.
Proof.
  induction g as [ts| |r|a IHa b IHb|a IHa b IHb|a IHa]; cbn [flats]; intros Hx Ht; try (destruct Hx as [<-|[]]; exact Ht).
  apply in_app_or in Hx. unfold nullable in *. cbn [nullable_t]. apply orb_true_iff. destruct Hx; [left | right]; auto.
Qed.

Definition fits (k : list gexp) (o : option ttype) : Prop :=
  match o with None => forallb nullable k = true | Some t => In t (firstk k []) end.

Lemma fits_norm g k o : fits (norm g ++ k) o -> fits (g :: k) o.
Proof. destruct o as [t|]; cbn [fits]; [apply firstk_norm | rewrite nullable_norm; auto]. Qed.

Lemma next_fits s S o : next s S o -> forall k ks, GenShape.res s = Some k -> stack_res S ks -> fits (k ++ concat ks) o.
Proof.
  induction 1 as [s Hs | s f S o Hs Hp IH | s t S o Hi Hp IH | s rs t S x Hi Hr | s b ix f S o Hi Hp IH]; intros k ks Ek Hks.
  - inversion Hks; subst. destruct (state_kind _ _ Ek); try congruence. subst. reflexivity.
  - inversion Hks as [|? kf ? ks' Ef Hks']; subst. destruct (state_kind _ _ Ek); try congruence. subst. cbn [app concat]. apply IH; assumption.
  - destruct (state_kind _ _ Ek) as [E Hk|t' E _ Et|? ? ? ? E|? ? ? ? E|t1 t2 a k' E _ -> E1 E2|ts a b k' E _ -> Hl Hn]; rewrite E in Hi.
    + destruct Hi.
    + destruct Hi as [[= ->]|[]]. apply IH; assumption.
    + destruct Hi as [[=]|[]].
    + destruct Hi as [[=]|[]].
    + destruct Hi as [[= ->]|[[= ->]|[]]].
      * specialize (IH _ _ E1 Hks). rewrite <- app_assoc in IH. apply fits_norm in IH. cbn [app] in *. destruct o as [x|]; cbn [fits] in *.
        -- apply firstk_cons in IH. destruct IH as [IH|[_ IH]]; [apply firstk_cons; left; exact IH | exact IH].
        -- cbn [forallb] in IH. apply andb_true_iff in IH. apply IH.
      * specialize (IH _ _ E2 Hks). cbn [app]. destruct o as [x|]; cbn [fits] in *; [apply firstk_cons; right; split; [reflexivity | exact IH] | exact IH].
    + apply in_map_iff in Hi. destruct Hi as (t' & [= ->] & Hi). apply In_nth_error in Hi. destruct Hi as [i Ei].
      destruct (nth_error (flats (Alt a b)) i) as [g|] eqn:Eg.
      2: { apply nth_error_None in Eg. assert (nth_error ts i <> None) as Hx by congruence. apply nth_error_Some in Hx. lia. }
      specialize (IH _ _ (Hn i t g Ei Eg) Hks). rewrite <- app_assoc in IH. apply fits_norm in IH. apply nth_error_In in Eg. cbn [app]. destruct o as [x|]; cbn [fits] in *.
      * apply firstk_cons in IH. apply firstk_cons. destruct IH as [IH|[H1 H2]]; [left; eapply flats_first; eassumption | right; split; [eapply flats_null; eassumption | exact H2]].
      * cbn [forallb] in *. apply andb_true_iff in IH. destruct IH as [H1 H2]. rewrite H2, andb_true_r. eapply flats_null; eassumption.
  - destruct (state_kind _ _ Ek) as [E Hk|t' E _ Et|rs' t' ts k' E _ -> Hm Et|? ? ? ? E|t1 t2 a k' E _ -> E1 E2|ts a b k' E _ -> Hl Hn]; rewrite E in Hi.
    + destruct Hi.
    + destruct Hi as [[=]|[]].
    + destruct Hi as [[= -> ->]|[]]. cbn [fits app]. apply firstk_cons. left. change (In x ts). apply memb_In. rewrite <- Hm. exact Hr.
    + destruct Hi as [[=]|[]].
    + destruct Hi as [[=]|[[=]|[]]].
    + apply in_map_iff in Hi. destruct Hi as (t' & [=] & _).
  - destruct (state_kind _ _ Ek) as [E Hk|t' E _ Et|rs' t' ts k' E _ -> Hm Et|ix' r f' k' E _ -> Ef|t1 t2 a k' E _ -> E1 E2|ts a b' k' E _ -> Hl Hn]; rewrite E in Hi.
    + destruct Hi.
    + destruct Hi as [[=]|[]].
    + destruct Hi as [[=]|[]].
    + destruct Hi as [[= <- <- ->]|[]]. specialize (IH (norm (body r)) (k' :: ks) (res_start r)). specialize (IH ltac:(constructor; assumption)).
      cbn [concat] in IH. apply fits_norm in IH. cbn [app]. destruct o as [x|]; cbn [fits] in *.
      * apply firstk_cons in IH. apply firstk_cons. destruct IH as [IH|[H1 H2]]; [left; apply first_nt; exact IH | right; split; [apply null_nt; exact H1 | exact H2]].
      * cbn [forallb] in *. apply andb_true_iff in IH. destruct IH as [H1 H2]. rewrite H2, andb_true_r. apply null_nt. exact H1.
    + destruct Hi as [[=]|[[=]|[]]].
    + apply in_map_iff in Hi. destruct Hi as (t' & [=] & _).
Qed.

Definition some_runtime : runtime := mkRuntime first_alt sync_test.

Theorem some_runtime_ok : runtime_ok some_runtime.
Proof.
  split; cbn [predict sync_fails some_runtime]; [intros d st w; split|].
  - intros i H. unfold first_alt in H. pose proof (find_seq (try_alt d st w) (length (alternatives d)) 1) as F. rewrite H in F. lia.
  - intros i _ Hi Hmin. unfold first_alt. pose proof (find_seq (try_alt d st w) (length (alternatives d)) 1) as F.
    pose proof (can_finish_range _ _ _ _ Hi) as Hr. apply try_alt_spec in Hi.
    destruct (find (try_alt d st w) (seq 1 (length (alternatives d)))) as [j|].
    + destruct F as (F1 & F2 & F3). f_equal. destruct (Nat.lt_trichotomy i j) as [L|[L|L]]; [|congruence|].
      * rewrite F3 in Hi by lia. discriminate.
      * exfalso. apply (Hmin j L). apply try_alt_spec. exact F2.
    + rewrite F in Hi by lia. discriminate.
  - intros n t H. unfold sync_test. destruct (GenShape.res n) as [k|] eqn:E; [|reflexivity]. apply negb_false_iff. apply orb_true_iff.
    destruct H as [H|H]; pose proof (next_fits _ _ _ H k [] E ltac:(constructor)) as F; cbn [concat] in F; rewrite app_nil_r in F; cbn [fits] in F.
    + left. exact F.
    + right. apply memb_In. exact F.
Qed.
