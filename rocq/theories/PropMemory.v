(** C73: how large the tables that the calls of a process share can get. *)
From Coq Require Import String List NArith ZArith Bool Arith Lia Relations.
From Verif Require Import Lexer Grammar Utf8 Strs Mime GoTime Parser Spec ParserFacts Static LexFacts Walker Api GenAtn GenRun GenLex GenCache GenLexCache PropGen GenRecover GenCacheRec PropCache PropLexCache PropProcess.
Import ListNotations.

(** ** Specification *)
(** The states that the lexer's and the parser's tables hold. *)
(* /repo: parser/rfc5322_lexer.go:205-209, parser/rfc5322_parser.go:605-609: decisionToDFA, of both *)
Definition stored (s : world) : nat := let '(lc, c, _) := s in length (lnodes lc) + length (nodes c).
(** The steps of all calls so far. *)
Definition worked (s : world) : nat := let '(_, _, js) := s in list_sum (map v_steps js).
(** What the inputs so far allow. *)
Definition allowed (js : list live) : Z := fold_right Z.add 0%Z (map (fun j => call_steps (length (v_input j))) js).

(** ** Proofs *)
Lemma sum_at (js1 : list live) j js2 : list_sum (map v_steps (js1 ++ j :: js2)) = list_sum (map v_steps js1) + (v_steps j + list_sum (map v_steps js2)).
Proof. rewrite map_app, list_sum_app. reflexivity. Qed.
Lemma lstep_one m lc t lc' t' : lstep m lc t lc' t' -> length (lnodes lc') <= S (length (lnodes lc)).
Proof. intros [| | | | | | | | | | | |]; cbn [lnodes set_lroot add_lnode set_llink]; try rewrite app_length; cbn [length]; lia. Qed.
Lemma rstep_one c t c' t' : rstep c t c' t' -> length (nodes c') <= S (length (nodes c)).
Proof. intros [| | | | | | | | | | | ]; cbn [nodes set_root add_node set_link]; try rewrite app_length; cbn [length]; lia. Qed.
Lemma step_grows s s' : world_step s s' -> stored s' + worked s <= stored s + worked s'.
Proof.
  intros [lc c js f e input Hi | lc c js1 f e input t i js2 lc' t' S0 | lc c js1 f e input w i js2 n Hn | lc c js1 f e input t i js2 c' t' S0]; cbn [stored worked].
  - rewrite map_app, list_sum_app. cbn [map list_sum fold_right v_steps]. lia.
  - rewrite !sum_at. cbn [v_steps]. apply lstep_one in S0. lia.
  - rewrite !sum_at. cbn [v_steps]. lia.
  - rewrite !sum_at. cbn [v_steps]. apply rstep_one in S0. lia.
Qed.
Lemma stored_worked s : occurs s -> stored s <= worked s.
Proof.
  unfold occurs. intros H. assert (B : stored (empty_lcache, empty_cache, @nil live) <= worked (empty_lcache, empty_cache, @nil live)) by (cbn; lia).
  revert B. induction H as [s|s1 s2 s3 H1 _ IH]; [auto|]. intros B. apply IH. apply step_grows in H1. lia.
Qed.

(** ** Theorem *)
(** In every history and every schedule: the tables hold no more states than the calls so far have made steps, and
    that many the lengths of the inputs bound. *)
Theorem C73_tables lc c js : occurs (lc, c, js) -> (Z.of_nat (stored (lc, c, js)) <= allowed js)%Z.
Proof.
  intros H. pose proof (stored_worked _ H) as L. cbn [worked] in L.
  assert (A : forall l, incl l js -> (Z.of_nat (list_sum (map v_steps l)) <= allowed l)%Z).
  { induction l as [|[f e input p i] l IH]; intros K; [cbn; lia|]. specialize (IH (fun x Hx => K x (or_intror Hx))).
    pose proof (C63_recovering_steps lc c js f e input p i H (K _ (or_introl eq_refl))) as B. unfold allowed in *. cbn [map list_sum fold_right v_steps v_input] in *.
    change (fold_right Nat.add 0 (map v_steps l)) with (list_sum (map v_steps l)). lia. }
  specialize (A js (incl_refl js)). lia.
Qed.
(** A table does not lose a state and does not change one: nodes are referred to by number. *)
Theorem C73_tables_only_grow lc c js lc' c' js' : world_step (lc, c, js) (lc', c', js') ->
  (exists new, lnodes lc' = lnodes lc ++ new) /\ (exists new, nodes c' = nodes c ++ new).
Proof.
  assert (Z0 : forall A (l : list A), exists new, l = l ++ new) by (intros; exists []; symmetry; apply app_nil_r).
  intros H. inversion H as [? ? ? f e input Hi | ? ? js1 f e input t i js2 ? t' S0 | ? ? js1 f e input w i js2 n Hn | ? ? js1 f e input t i js2 ? t' S0]; subst.
  - split; apply Z0.
  - split; [|apply Z0]. destruct S0; cbn [lnodes set_lroot add_lnode set_llink]; first [apply Z0 | eexists; reflexivity].
  - split; apply Z0.
  - split; [apply Z0|]. destruct S0; cbn [nodes set_root add_node set_link]; first [apply Z0 | eexists; reflexivity].
Qed.

(** The first call stores a state. *)
Example C73_met : exists lc c js, occurs (lc, c, js) /\ stored (lc, c, js) = 1 /\ map v_input js = [bs "a@b"].
Proof.
  set (nd := mkLNode lstart_cfg None). assert (H1 : lstarts (lcfg nd)) by apply lstarts_here.
  assert (H2 : lmarked nd) by (intros j Hj; apply lstarts_here in Hj as (t' & R'); exact (reads_not_nil _ _ R')).
  eexists _, _, _. split; [|split; cycle 1].
  - unfold occurs. eapply Relation_Operators.rt1n_trans; [apply (w_call empty_lcache empty_cache [] ParseAddressList_ env1 (bs "a@b")); discriminate|].
    cbn [app]. eapply Relation_Operators.rt1n_trans; [apply (w_lex _ _ []); apply (l_new_root _ _ _ _ nd H1 H2)|]. apply Relation_Operators.rt1n_refl.
  - reflexivity.
  - reflexivity.
Qed.
