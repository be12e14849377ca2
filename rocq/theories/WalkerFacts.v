(** The stack machine of Walker.v computes a compositional function of the parse tree, and never
    panics on the trees the parser builds. *)
From Coq Require Import String List NArith ZArith Bool Arith Lia.
From Verif Require Import Lexer Grammar Utf8 Strs Mime GoTime Parser Walker Spec ParserFacts.
Import ListNotations.

(** ** Denotation: what a node becomes when a subtree below it has been walked *)

Fixpoint feed (e : wenv) (p : node) (t : tree) : node :=
  match t with
  | Leaf _ => p
  | Node r ch =>
      match enter_node e r ch with
      | Some (Some (n, _)) => give p (fold_left (feed e) ch n)
      | _ => fold_left (feed e) ch p
      end
  end.

Definition feeds (e : wenv) (p : node) (f : list tree) : node := fold_left (feed e) f p.

Lemma feeds_app e p f1 f2 : feeds e p (f1 ++ f2) = feeds e (feeds e p f1) f2.
Proof. apply fold_left_app. Qed.

Lemma feeds_cons e p t f : feeds e p (t :: f) = feeds e (feed e p t) f.
Proof. reflexivity. Qed.

Lemma feeds_nil e p : feeds e p [] = p.
Proof. reflexivity. Qed.

(** The last error recorded while walking a subtree. *)
Fixpoint werr (e : wenv) (er : option error) (t : tree) : option error :=
  match t with
  | Leaf _ => er
  | Node r ch =>
      fold_left (werr e) ch
        (match enter_node e r ch with Some (Some (_, Some x)) => Some x | _ => er end)
  end.

Definition werrs (e : wenv) (er : option error) (f : list tree) : option error :=
  fold_left (werr e) f er.

(** Induction on trees. *)
Lemma tree_ind' (P : tree -> Prop) :
  (forall t, P (Leaf t)) -> (forall r ch, Forall P ch -> P (Node r ch)) -> forall t, P t.
Proof.
  intros HL HN. fix IH 1. intros [t|r ch].
  - apply HL.
  - apply HN. induction ch as [|c ch IHc]; constructor; [apply IH | exact IHc].
Qed.

(** Trees all of whose nodes satisfy [P]. *)
Fixpoint all_nodes (P : rule -> list tree -> Prop) (t : tree) : Prop :=
  match t with
  | Leaf _ => True
  | Node r ch => P r ch /\ fold_right (fun c acc => all_nodes P c /\ acc) True ch
  end.

Lemma all_nodes_node P r ch :
  all_nodes P (Node r ch) <-> P r ch /\ Forall (all_nodes P) ch.
Proof.
  cbn [all_nodes]. split; intros [H1 H2]; split; auto.
  - clear H1. induction ch as [|c ch IH]; [constructor|]. destruct H2. constructor; auto.
  - clear H1. induction ch as [|c ch IH]; [exact I|]. inversion H2; subst. split; auto.
Qed.

Lemma all_nodes_impl (P Q : rule -> list tree -> Prop) t :
  (forall r ch, P r ch -> Q r ch) -> all_nodes P t -> all_nodes Q t.
Proof.
  intros HPQ. induction t as [t|r ch IH] using tree_ind'; [auto|].
  rewrite !all_nodes_node. intros [H1 H2]. split; [auto|].
  rewrite Forall_forall in *. auto.
Qed.

(** ** Types are preserved *)

Lemma give_type r p c : node_of_rule r (give p c) = node_of_rule r p.
Proof.
  destruct c, p; try reflexivity; destruct r; try reflexivity; cbn [give];
    match goal with
    | |- context [if ?u then _ else _] => destruct u; [|destruct value0]; reflexivity
    | |- context [match ?v with [] => _ | _ => _ end] => destruct v; reflexivity
    end.
Qed.

Lemma feed_type e t : forall r p, node_of_rule r (feed e p t) = node_of_rule r p.
Proof.
  induction t as [t|r0 ch IH] using tree_ind'; intros r p; cbn [feed]; [reflexivity|].
  assert (H : forall q, node_of_rule r (fold_left (feed e) ch q) = node_of_rule r q).
  { clear p. induction IH as [|c ch Hc Hch IHch]; intros q; cbn [fold_left]; [reflexivity|].
    rewrite IHch. apply Hc. }
  destruct (enter_node e r0 ch) as [[[n er]|]|]; rewrite ?give_type; auto.
Qed.

Lemma feeds_type e f : forall r p, node_of_rule r (feeds e p f) = node_of_rule r p.
Proof.
  induction f as [|c f IH]; intros r p; [reflexivity|]. rewrite feeds_cons, IH. apply feed_type.
Qed.

Lemma enter_type e r ch n er : enter_node e r ch = Some (Some (n, er)) -> node_of_rule r n = true.
Proof.
  unfold enter_node. destruct r; try discriminate; intros H;
    try (injection H as <- <-; reflexivity).
  destruct (offset_value (get_text ch)) as [[[rep v] er']|]; [|discriminate].
  injection H as <- <-. reflexivity.
Qed.

Lemma enter_handled e r ch n er : enter_node e r ch = Some (Some (n, er)) -> handled r = true.
Proof.
  unfold enter_node. destruct r; try discriminate; reflexivity.
Qed.

Lemma enter_unhandled e r ch : enter_node e r ch = Some None -> handled r = false.
Proof.
  unfold enter_node. destruct r; try discriminate; try reflexivity.
  destruct (offset_value (get_text ch)) as [[[rep v] er']|]; discriminate.
Qed.

(** ** The walk *)

Definition inner (r : rule) : bool :=
  match r with R_addressList | R_dateTime => false | _ => true end.

(** What excludes a panic at one node below the root. *)
Definition node_safe (r : rule) (ch : list tree) : Prop :=
  inner r = true /\ (r = R_offset -> offset_value (get_text ch) <> None).

Fixpoint walks (e : wenv) (f : list tree) (st : wstate) : option wstate :=
  match f with
  | [] => Some st
  | t :: f' => match walk e t st with Some st' => walks e f' st' | None => None end
  end.

Lemma walk_node e r ch st :
  walk e (Node r ch) st =
  match do_enter e r ch st with
  | None => None
  | Some st1 => match walks e ch st1 with None => None | Some st2 => do_exit r st2 end
  end.
Proof.
  cbn [walk]. destruct (do_enter e r ch st) as [st1|]; [|reflexivity].
  assert (H : forall f s, (fix walks (f : list tree) (st : wstate) : option wstate :=
       match f with
       | [] => Some st
       | t :: f' => match walk e t st with Some st' => walks f' st' | None => None end
       end) f s = walks e f s).
  { induction f as [|c f IH]; intros s; cbn; [reflexivity|]. destruct (walk e c s); auto. }
  rewrite H. reflexivity.
Qed.

Lemma enter_some e r ch : node_safe r ch -> enter_node e r ch <> None.
Proof.
  intros [_ H]. unfold enter_node. destruct r; try discriminate.
  specialize (H eq_refl). destruct (offset_value (get_text ch)) as [[[? ?] ?]|]; congruence.
Qed.

Lemma walk_feed e t : all_nodes node_safe t -> forall p st rs er,
  walk e t (mkW (p :: st) rs er) = Some (mkW (feed e p t :: st) rs (werr e er t)).
Proof.
  induction t as [t|r ch IH] using tree_ind'; intros Hs p st rs er; [reflexivity|].
  rewrite all_nodes_node in Hs. destruct Hs as [Hr Hch].
  assert (HW : forall q st' er', walks e ch (mkW (q :: st') rs er') =
     Some (mkW (feeds e q ch :: st') rs (werrs e er' ch))).
  { clear Hr p st er. induction ch as [|c ch IHch]; intros q st' er'; [reflexivity|].
    inversion IH; subst. inversion Hch; subst. cbn [walks].
    rewrite H1 by assumption. rewrite IHch by assumption. reflexivity. }
  rewrite walk_node. unfold do_enter. cbn [feed werr].
  pose proof (enter_some e r ch Hr) as Hne.
  destruct (enter_node e r ch) as [[[n er1]|]|] eqn:E; [| |congruence].
  - cbn [nodes res err]. rewrite HW. unfold do_exit.
    rewrite (enter_handled _ _ _ _ _ E). cbn [nodes].
    rewrite feeds_type, (enter_type _ _ _ _ _ E).
    assert (Hin : inner r = true) by apply Hr.
    cbn [res err]. fold (feeds e n ch). fold (werrs e (match er1 with Some x => Some x | None => er end) ch).
    destruct r; try discriminate Hin; destruct er1; reflexivity.
  - rewrite HW. unfold do_exit. rewrite (enter_unhandled _ _ _ E). reflexivity.
Qed.
