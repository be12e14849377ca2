(** Facts about the lexer: which characters have a token, and how token strings relate to the
    characters of the input. *)
From Coq Require Import String List NArith ZArith Bool Arith Lia.
From Verif Require Import Lexer Grammar Utf8 Strs Parser Walker Api Spec ParserFacts WalkerFacts
  Static Cfws DateSpec.
Import ListNotations.
Local Open Scope N_scope.

Lemma lex_bmp r : bmp r = true -> exists t, lex_rune r = Some t.
Proof.
  unfold bmp. intros H. apply N.leb_le in H. unfold lex_rune.
  repeat match goal with
         | |- context [if ?b then _ else _] => destruct b eqn:?; [eexists; reflexivity|]
         end.
  exfalso. unfold in_range in *.
  repeat match goal with
         | H : (_ || _)%bool = false |- _ => apply orb_false_iff in H as [? ?]
         | H : (_ =? _) = false |- _ => apply N.eqb_neq in H
         | H : (_ && _)%bool = false |- _ => apply andb_false_iff in H; rewrite !N.leb_gt in H
         end.
  lia.
Qed.

Lemma lex_not_bmp r : bmp r = false -> lex_rune r = None.
Proof.
  unfold bmp. intros H. apply N.leb_gt in H. unfold lex_rune, in_range.
  repeat match goal with
         | |- context [r =? ?k] => replace (r =? k) with false by (symmetry; apply N.eqb_neq; lia)
         | |- context [r <=? ?k] => replace (r <=? k) with false by (symmetry; apply N.leb_gt; lia)
         end.
  rewrite !andb_false_r. reflexivity.
Qed.

(** Types given by the lexer. *)
Lemma lex_types r t : lex_rune r = Some t -> t <> T_EOF /\ t <> T_Invalid.
Proof.
  unfold lex_rune.
  repeat match goal with
         | |- context [if ?b then _ else _] =>
             destruct b; [intros H; injection H as <-; split; discriminate|]
         end.
  discriminate.
Qed.

(** The scanner's view of a character and of its token agree. *)
Definition rkind (r : rune) : kind :=
  if (r =? 32) || (r =? 9) || (r =? 13) || (r =? 10) then KWs
  else if r =? 40 then KOpen else if r =? 41 then KClose else if r =? 92 then KBack else KOther.

Lemma lex_kind r t : lex_rune r = Some t -> tkind t = rkind r.
Proof.
  unfold lex_rune, in_range.
  repeat match goal with
         | |- context [if ?b then _ else _] =>
             let E := fresh "E" in destruct b eqn:E;
             [ intros H; injection H as <-;
               first [ apply N.eqb_eq in E; subst r; reflexivity
                     | apply orb_true_iff in E; destruct E as [E|E]; apply N.eqb_eq in E; subst r; reflexivity
                     | let A := fresh in let A2 := fresh in apply andb_true_iff in E as [A A2]; apply N.leb_le in A; apply N.leb_le in A2;
                       unfold rkind;
                       repeat match goal with |- context [r =? ?k] =>
                         replace (r =? k) with false by (symmetry; apply N.eqb_neq; lia) end;
                       reflexivity ] |]
         end.
  discriminate.
Qed.

Definition lexed (t : tok) : Prop := lex_rune (tr t) = Some (tt t).

Lemma strip_step n r rs : strip n (r :: rs) =
  match n with
  | O => match rkind r with KWs => strip 0 rs | KOpen => strip 1 rs | _ => r :: strip 0 rs end
  | S k => match rkind r with
           | KBack => match rs with _ :: rs' => strip n rs' | [] => [] end
           | KOpen => strip (S n) rs
           | KClose => strip k rs
           | _ => strip n rs
           end
  end.
Proof.
  destruct n; cbn [strip]; unfold rkind;
    destruct (N.eqb_spec r 32); [subst; reflexivity| |subst; reflexivity|];
    (destruct (N.eqb_spec r 9); [subst; reflexivity|]);
    (destruct (N.eqb_spec r 13); [subst; reflexivity|]);
    (destruct (N.eqb_spec r 10); [subst; reflexivity|]);
    (destruct (N.eqb_spec r 40); [subst; reflexivity|]);
    (destruct (N.eqb_spec r 41); [subst; reflexivity|]);
    (destruct (N.eqb_spec r 92); [subst; reflexivity|]); reflexivity.
Qed.

Lemma tscan_strip w : Forall lexed w -> forall n, map tr (tscan n w) = strip n (map tr w).
Proof.
  assert (H : forall k w, (length w <= k)%nat -> Forall lexed w ->
     forall n, map tr (tscan n w) = strip n (map tr w)).
  { clear w. induction k as [|k IH]; intros w Hk Hw n.
    - destruct w; [reflexivity | cbn in Hk; lia].
    - destruct Hw as [|t w Ht Hw]; [reflexivity|]. cbn [length] in Hk.
      cbn [map]. rewrite strip_step. cbn [tscan]. rewrite (lex_kind _ _ Ht).
      destruct n; destruct (rkind (tr t)); cbn [map]; try (apply IH; [lia | assumption]);
        try (f_equal; apply IH; [lia | assumption]).
      destruct Hw; [reflexivity|]. cbn [length map] in *. apply IH; [lia | assumption]. }
  intros Hw n. apply (H (length w)); auto.
Qed.

(** Token strings of accepted inputs. *)
Fixpoint no_type (T : ttype) (g : gexp) : bool :=
  match g with
  | Cls ts => negb (memb T ts)
  | Eps | Nt _ => true
  | Seq a b | Alt a b => no_type T a && no_type T b
  | Star a => no_type T a
  end.

Lemma derives_no_type T g f :
  forallb (fun r => no_type T (body r)) all_rules = true ->
  derives g f -> no_type T g = true -> Forall (fun t => tt t <> T) (yields f).
Proof.
  intros HT. induction 1; cbn [no_type]; intros Hg; try (constructor; fail);
    rewrite ?yields_app; try (apply andb_true_iff in Hg as [Hg1 Hg2]);
    try (apply Forall_app; split); auto.
  - constructor; [|constructor]. intros E. rewrite <- E in Hg. apply memb_In in H. rewrite H in Hg.
    discriminate.
  - change (yield (Node r f)) with (yields f). apply IHderives. exact (all_rules_forall _ HT r).
Qed.

Lemma lang_no_invalid r w : lang (Nt r) w -> Forall (fun t => tt t <> T_Invalid) w.
Proof.
  intros [f [D <-]]. eapply derives_no_type; [|exact D|reflexivity]. vm_compute. reflexivity.
Qed.

(** Without invalid tokens the token string spells the characters up to U+FFFF. *)
Definition tok_of (r : rune) : tok :=
  mkTok (match lex_rune r with Some t => t | None => T_Invalid end) r.

Lemma lex_body m rs : Forall (fun t => tt t <> T_Invalid) (flat_map (lex1 m) rs) ->
  flat_map (lex1 m) rs = map tok_of (filter bmp rs).
Proof.
  induction rs as [|r rs IH]; [reflexivity|]. cbn [flat_map filter]. intros H.
  apply Forall_app in H as [H1 H2]. rewrite (IH H2). unfold lex1, tok_of in *.
  destruct (bmp r) eqn:E.
  - destruct (lex_bmp r E) as [t Ht]. cbn [map]. rewrite Ht. reflexivity.
  - rewrite (lex_not_bmp r E) in *. destruct m; [reflexivity|]. inversion H1; subst. cbn in H3. congruence.
Qed.

Lemma tok_of_lexed r : bmp r = true -> lexed (tok_of r).
Proof.
  intros H. destruct (lex_bmp r H) as [t Ht]. unfold lexed, tok_of. cbn. now rewrite Ht.
Qed.

Lemma toks_lexed rs : Forall lexed (map tok_of (filter bmp rs)).
Proof.
  rewrite Forall_forall. intros t Ht. apply in_map_iff in Ht as [r [<- Hr]].
  apply filter_In in Hr as [_ Hr]. now apply tok_of_lexed.
Qed.

Lemma map_tr_tok_of rs : map tr (map tok_of rs) = rs.
Proof. rewrite map_map. cbn. apply map_id. Qed.

Theorem tokens_spell e s : Forall (fun t => tt t <> T_Invalid) (tokens e s) ->
  tokens e s = map tok_of (filter bmp (decode s)) ++ [eof_tok].
Proof.
  unfold tokens, lex. intros H. apply Forall_app in H as [H _]. now rewrite lex_body.
Qed.

Lemma accepted_tokens e s r : lang (Nt r) (tokens e s) ->
  tokens e s = map tok_of (filter bmp (decode s)) ++ [eof_tok].
Proof. intros H. apply tokens_spell. now apply (lang_no_invalid r). Qed.
