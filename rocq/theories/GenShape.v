(** The shape of the generated code: the grammar expression a sequence of statements stands for, and the
    grammar expression that remains to be read in each state of the network. *)
From Coq Require Import List NArith ZArith Bool Arith FMapPositive.
From Verif Require Import Lexer Grammar Parser Spec ParserFacts Static Cfws First GenSyntax GenAtn GenCode GenRun.
Import ListNotations.

(** The token types that satisfy a condition. *)
Definition cond_set (c : cond) : list ttype :=
  flat_map (fun x => match x with CEq t => [t] | CBits _ ts => ts end) c.

(** The expressions a statement stands for; bookkeeping statements stand for nothing. *)
Fixpoint gx1 (s : stmt) : list gexp :=
  let gxs := fix gxs (l : list stmt) : list gexp := match l with [] => [] | s :: l' => gx1 s ++ gxs l' end in
  match s with
  | SState _ | SSync => []
  | SMatch t => [Tok t]
  | SMatchSet c => [Cls (cond_set c)]
  | SCall r => [Nt r]
  | SIfLa _ b => [Opt (seqs (gxs b))]
  | SWhileLa _ b => [Star (seqs (gxs b))]
  | SDoLa _ b => [Plus (seqs (gxs b))]
  | SSwitchLa cs => [alts (map (fun x => seqs (gxs (snd x))) cs)]
  | SPredict d bs =>
      let g := alts (map (fun b => seqs (gxs b)) bs) in
      [if Nat.eqb (length bs) (length (alternatives d)) then g else Opt g]
  | SWhilePredict _ b _ => [Star (seqs (gxs b))]
  | SDoPredict _ b _ => [Plus (seqs (gxs b))]
  end.

Fixpoint gxl (l : list stmt) : list gexp := match l with [] => [] | s :: l' => gx1 s ++ gxl l' end.
Definition gx (l : list stmt) : gexp := seqs (gxl l).

(** ** Comparing expressions *)
Scheme Equality for rule.

Definition same_set (a b : list ttype) : bool := subset a b && subset b a.

(** Equal up to the order of the token types in a set. *)
Fixpoint geqv (a b : gexp) : bool :=
  match a, b with
  | Cls x, Cls y => same_set x y
  | Eps, Eps => true
  | Nt r, Nt s => rule_beq r s
  | Seq a b, Seq c d | Alt a b, Alt c d => geqv a c && geqv b d
  | Star a, Star b => geqv a b
  | _, _ => false
  end.

(** The code of every rule has the shape of the grammar rule. *)
Lemma code_shape : forallb (fun r => geqv (gx (code r)) (body r)) all_rules = true.
Proof. vm_compute. reflexivity. Qed.

Fixpoint tl_eqb (a b : list ttype) : bool :=
  match a, b with [], [] => true | x :: a', y :: b' => N.eqb x y && tl_eqb a' b' | _, _ => false end.
Fixpoint geqb (a b : gexp) : bool :=
  match a, b with
  | Cls x, Cls y => tl_eqb x y
  | Eps, Eps => true
  | Nt r, Nt s => rule_beq r s
  | Seq a b, Seq c d | Alt a b, Alt c d => geqb a c && geqb b d
  | Star a, Star b => geqb a b
  | _, _ => false
  end.
Fixpoint kl_eqb (a b : list gexp) : bool :=
  match a, b with [], [] => true | x :: a', y :: b' => geqb x y && kl_eqb a' b' | _, _ => false end.

(** ** What remains to be read in a state, up to the end of its rule *)
Fixpoint norm (g : gexp) : list gexp :=
  match g with Eps => [] | Seq a b => norm a ++ norm b | _ => [g] end.
Definition normk (k : list gexp) : list gexp := flat_map norm k.

(** The alternatives of nested choices, in order. *)
Fixpoint flats (g : gexp) : list gexp := match g with Alt a b => flats a ++ flats b | _ => [g] end.

(** What remains in the targets of the transitions [es] when [k] remains before them. *)
Definition targets (es : list edge) (k : list gexp) : list (N * list gexp) :=
  match es with
  | [] => []
  | [EEps t] => [(t, k)]
  | [ETok _ t] => [(t, tl k)]
  | [ERule _ _ f] => [(f, tl k)]
  | _ =>
      let ts := flat_map (fun e => match e with EEps t => [t] | _ => [] end) es in
      match k with
      | Star a :: k' => combine ts [norm a ++ k; k']
      | g :: k' => combine ts (map (fun x => norm x ++ k') (flats g))
      | [] => []
      end
  end.

Definition resmap := PositiveMap.t (list gexp).

Fixpoint visit (n : nat) (todo : list (N * list gexp)) (m : resmap) : resmap :=
  match n with
  | O => m
  | S n' =>
      match todo with
      | [] => m
      | (s, k) :: todo' =>
          match get m s with
          | Some _ => visit n' todo' m
          | None => visit n' (targets (edges s) k ++ todo') (put s k m)
          end
      end
  end.

Definition rule_start (r : rule) : N := fst (nth (rule_ix r) (a_starts parser_atn) (0%N, 0%Z)).

Definition residuals : resmap := Eval vm_compute in
  visit 4000 (map (fun r => (rule_start r, norm (body r))) all_rules) (PositiveMap.empty (list gexp)).

Definition res (s : N) : option (list gexp) := get residuals s.
Definition is_res (s : N) (k : list gexp) : bool := match res s with Some k' => kl_eqb k' k | None => false end.

(** The transitions agree with the residuals. *)
Definition all_types : list ttype := map N.of_nat (seq 0 72).
Definition eps_targets (es : list edge) : list N := flat_map (fun e => match e with EEps t => [t] | _ => [] end) es.
Definition all_eps (es : list edge) : bool := forallb (fun e => match e with EEps _ => true | _ => false end) es.
Fixpoint all2 {A B} (p : A -> B -> bool) (l : list A) (m : list B) : bool :=
  match l, m with [], [] => true | x :: l', y :: m' => p x y && all2 p l' m' | _, _ => false end.

Definition state_ok (s : N) (k : list gexp) : bool :=
  match edges s with
  | [] => is_stop s && match k with [] => true | _ => false end
  | [EEps t] => negb (is_stop s) && is_res t k
  | [ETok rs t] => negb (is_stop s) && match k with
      | Cls ts :: k' => forallb (fun x => Bool.eqb (in_ranges (go_type x) rs) (memb x ts)) all_types
                        && forallb (fun r => (snd r <=? 70)%Z) rs && subset ts all_types && is_res t k'
      | _ => false end
  | [ERule b ix f] => negb (is_stop s) && match k with
      | Nt r :: k' => N.eqb b (rule_start r) && N.eqb ix (N.of_nat (rule_ix r)) && is_res f k'
      | _ => false end
  | es => negb (is_stop s) && all_eps es && match k with
      | Star a :: k' => all2 is_res (eps_targets es) [norm a ++ k; k']
      | Alt a b :: k' => all2 is_res (eps_targets es) (map (fun x => norm x ++ k') (flats (Alt a b)))
      | _ => false end
  end.

Definition starts_ok : bool := forallb (fun r => is_res (rule_start r) (norm (body r))) all_rules.

(** Following single silent transitions ends. *)
Fixpoint settles (n : nat) (s : N) : bool :=
  match edges s with
  | [EEps t] => match n with O => false | S n' => settles n' t end
  | _ => true
  end.

(** A property of all residuals, checked one by one. *)
Definition for_states (p : N -> list gexp -> bool) : bool :=
  forallb (fun x => p (Pos.pred_N (fst x)) (snd x)) (PositiveMap.elements residuals).

Lemma states_checked : for_states (fun s k => state_ok s k && settles 8 s) = true.
Proof. vm_compute. reflexivity. Qed.

Lemma starts_checked : starts_ok = true.
Proof. vm_compute. reflexivity. Qed.

Lemma for_states_spec p : for_states p = true -> forall s k, res s = Some k -> p s k = true.
Proof.
  unfold for_states, res, get. rewrite forallb_forall. intros H s k E.
  apply PositiveMap.elements_correct in E. specialize (H _ E). cbn [fst snd] in H.
  rewrite N.pos_pred_succ in H. exact H.
Qed.

Lemma state_ok_res s k : res s = Some k -> state_ok s k = true.
Proof.
  intros E. pose proof (for_states_spec _ states_checked s k E) as H. apply andb_true_iff in H. apply H.
Qed.

Lemma settles_res s k : res s = Some k -> settles 8 s = true.
Proof.
  intros E. pose proof (for_states_spec _ states_checked s k E) as H. apply andb_true_iff in H. apply H.
Qed.

(** ** The comparisons decide equality *)
Lemma rule_beq_eq r s : rule_beq r s = true -> r = s.
Proof. apply internal_rule_dec_bl. Qed.

Lemma tl_eqb_eq a : forall b, tl_eqb a b = true -> a = b.
Proof.
  induction a as [|x a IH]; intros [|y b] H; try discriminate; [reflexivity|]. cbn in H.
  apply andb_true_iff in H. destruct H as [H1 H2]. apply N.eqb_eq in H1. apply IH in H2. subst. reflexivity.
Qed.

Lemma geqb_eq a : forall b, geqb a b = true -> a = b.
Proof.
  induction a as [x| |r|a1 IH1 a2 IH2|a1 IH1 a2 IH2|a IH]; intros [y| |s|b1 b2|b1 b2|b] H; try discriminate; cbn [geqb] in H.
  - apply tl_eqb_eq in H. subst. reflexivity.
  - reflexivity.
  - apply rule_beq_eq in H. subst. reflexivity.
  - apply andb_true_iff in H. destruct H as [H1 H2]. rewrite (IH1 _ H1), (IH2 _ H2). reflexivity.
  - apply andb_true_iff in H. destruct H as [H1 H2]. rewrite (IH1 _ H1), (IH2 _ H2). reflexivity.
  - rewrite (IH _ H). reflexivity.
Qed.

Lemma kl_eqb_eq a : forall b, kl_eqb a b = true -> a = b.
Proof.
  induction a as [|x a IH]; intros [|y b] H; try discriminate; [reflexivity|]. cbn in H.
  apply andb_true_iff in H. destruct H as [H1 H2]. apply geqb_eq in H1. apply IH in H2. subst. reflexivity.
Qed.

Lemma is_res_spec s k : is_res s k = true -> res s = Some k.
Proof. unfold is_res. destruct (res s) as [k'|]; [|discriminate]. intros H. apply kl_eqb_eq in H. subst. reflexivity. Qed.

Lemma res_start r : res (rule_start r) = Some (norm (body r)).
Proof.
  apply is_res_spec. revert r. apply all_rules_forall. exact starts_checked.
Qed.

Lemma all2_nth {A B} (p : A -> B -> bool) l : forall m, all2 p l m = true ->
  length l = length m /\ forall i x y, nth_error l i = Some x -> nth_error m i = Some y -> p x y = true.
Proof.
  induction l as [|x l IH]; intros [|y m] H; try discriminate.
  - split; [reflexivity|]. intros [|i] a b E; discriminate.
  - cbn in H. apply andb_true_iff in H. destruct H as [H1 H2]. destruct (IH _ H2) as [H3 H4].
    split; [cbn; f_equal; exact H3|]. intros [|i] a b E1 E2; cbn in E1, E2.
    + injection E1 as <-. injection E2 as <-. exact H1.
    + exact (H4 i a b E1 E2).
Qed.
