(** C61, continued: the exported functions on the generated code with ALL-star prediction; cases. *)
From Coq Require Import String List NArith ZArith Bool Arith Lia FMapPositive.
From Verif Require Import Lexer Grammar Utf8 Strs Mime GoTime Parser Spec ParserFacts Static Cfws First LexFacts Walker Api GenSyntax GenAtn GenCode GenRun GenShape GenNet GenCheck GenFacts GenLex GenWit GenPredict PropGen.
Import ListNotations.

(** What the exported functions return is what they return on the generated lexer and parser with any
    runtime that predicts as ALL-star does, whatever it does after an error. *)
Theorem C61_exported_functions_with_all_star rt e input w :
  all_star rt -> input <> [] -> scans (bad_rune e) (decode input) w ->
  exists n0, forall n, n0 <= n ->
    generated_list rt n e w = Some (ParseAddressList e input) /\
    generated_time rt n e w = Some (ParseDateTime e input).
Proof. intros H. apply C48_exported_functions_on_generated_code. apply C61_all_star_is_enough. exact H. Qed.

(** Two runtimes that predict as ALL-star does cannot be told apart by a caller. *)
Theorem C61_prediction_is_not_observable rt rt' e input w :
  all_star rt -> all_star rt' -> input <> [] -> scans (bad_rune e) (decode input) w ->
  exists n0, forall n n', n0 <= n -> n0 <= n' ->
    generated_list rt n e w = generated_list rt' n' e w /\ generated_time rt n e w = generated_time rt' n' e w.
Proof.
  intros H H' Hi Hw. destruct (C61_exported_functions_with_all_star rt e input w H Hi Hw) as [a Ha].
  destruct (C61_exported_functions_with_all_star rt' e input w H' Hi Hw) as [b Hb].
  exists (Nat.max a b). intros n n' L L'. destruct (Ha n ltac:(lia)) as [-> ->]. destruct (Hb n' ltac:(lia)) as [-> ->]. auto.
Qed.

(** ** The hypotheses can be met *)
Lemma some_second_answer d st w : second_answer d st w (first_alt d st w).
Proof.
  unfold first_alt. pose proof (find_seq (try_alt d st w) (length (alternatives d)) 1) as F.
  destruct (find (try_alt d st w) (seq 1 (length (alternatives d)))) as [i|].
  - destruct F as (F1 & F2 & F3). apply a_end; [apply try_alt_spec; exact F2|]. intros j Hj Hf.
    pose proof (can_finish_range _ _ _ _ Hf) as Hr. apply try_alt_spec in Hf. rewrite F3 in Hf by lia. discriminate.
  - apply a_error3; [|discriminate]. intros k Hf. pose proof (can_finish_range _ _ _ _ Hf) as Hr. apply try_alt_spec in Hf.
    rewrite F in Hf by lia. discriminate.
Qed.

Lemma some_answer d st w : answer d st w (first_alt d st w).
Proof. apply a_full. apply some_second_answer. Qed.

Example C61_runtime : all_star some_runtime.
Proof.
  constructor; [exact some_answer|]. intros n t H. split; intros Hn.
  - change (sync_fails some_runtime n t = true) in H. rewrite (proj2 some_runtime_ok n t) in H by auto. discriminate.
  - change (sync_fails some_runtime n t = true) in H. rewrite (proj2 some_runtime_ok n t) in H by auto. discriminate.
Qed.

(** Which alternatives the first stage keeps after one token. *)
Lemma reach_next wild s S u s' S' : reach wild s S u s' S' -> forall x v, u = x :: v -> next s S (Some (tt x)) \/ next s S None.
Proof.
  induction 1 as [s S | s t S u s' S' Hi H IH | s rs t S x u s' S' Hi Hr H IH | s b ix f S u s' S' Hi H IH
    | s f S u s' S' Hs H IH | s n b f u s' S' Hw Hs Hi H IH]; intros y v E.
  - discriminate.
  - destruct (IH _ _ E); [left | right]; eapply n_eps; eassumption.
  - injection E as <- <-. left. eapply n_tok; eassumption.
  - destruct (IH _ _ E); [left | right]; eapply n_rule; eassumption.
  - destruct (IH _ _ E); [left | right]; apply n_ret; assumption.
  - right. apply n_done. exact Hs.
Qed.

Definition starts_with (t : N) (x : ttype) : bool :=
  match GenShape.res t with Some k => forallb nullable k || memb x (firstk k []) | None => true end.

Lemma alive_starts d x u i : alive true d [] (x :: u) i -> exists t, alternative d i = Some t /\ starts_with t (tt x) = true.
Proof.
  intros (s & S' & t & Et & R). exists t. split; [exact Et|]. unfold starts_with. destruct (GenShape.res t) as [k|] eqn:E; [|reflexivity].
  destruct (reach_next _ _ _ _ _ _ R x u eq_refl) as [H|H]; pose proof (next_fits _ _ _ H k [] E ltac:(constructor)) as F;
    cbn [concat] in F; rewrite app_nil_r in F; cbn [fits] in F; apply orb_true_iff.
  - right. apply memb_In. exact F.
  - left. exact F.
Qed.

Lemma only_one_from d x u v i : try_alt d [] ((x :: u) ++ v) i = true ->
  forallb (fun k => Nat.eqb k i || match alternative d k with Some t => negb (starts_with t (tt x)) | None => true end) (seq 1 (length (alternatives d))) = true ->
  only_one d (x :: u) i.
Proof.
  intros H1 H2. split.
  - apply (alive_wild d [] (x :: u)); [exact I|]. apply (finish_alive d [] (x :: u) v). apply try_alt_spec. exact H1.
  - intros k Hk. apply alive_starts in Hk as (t & Et & Ht). rewrite forallb_forall in H2.
    pose proof (alternative_range _ _ _ Et) as R. specialize (H2 k ltac:(apply in_seq; lia)). rewrite Et, Ht in H2.
    apply orb_true_iff in H2. destruct H2 as [H2|H2]; [apply Nat.eqb_eq; exact H2 | discriminate].
Qed.

Lemma only_one_as_good d st u i : linked (rule_of (decision_state d)) st -> only_one d u i ->
  alive false d (map return_state st) u i -> as_good d st u i.
Proof.
  intros L [_ H] A. split; [exact A|]. intros k s S' Hk _.
  assert (k = i) as -> by (apply H; apply (alive_wild _ st); [exact L | exists s, S'; exact Hk]). split; [lia | exact Hk].
Qed.

(** Whether an address is a mailbox or a group (decision 66) is settled by a first character '<': the first
    stage predicts a mailbox, whatever follows and whatever is pending. *)
Example C61_first_stage : In (SPredict 66 [[SState 548; SCall R_mailbox]; [SState 549; SCall R_group]]) (code R_address) /\
  forall st v, answer 66 st (mkTok T_Less 60%N :: v) (Some 1).
Proof.
  split; [right; right; left; reflexivity|]. intros st v. apply (a_first _ _ _ [mkTok T_Less 60%N] v); [reflexivity|].
  apply (only_one_from _ _ _ (flat_map (lex1 SkipBad) (bs "a@b>"))); [vm_compute; reflexivity|]. vm_compute. reflexivity.
Qed.

(** The same in the second stage. *)
Example C61_second_stage : as_good 66 [] [mkTok T_Less 60%N] 1.
Proof.
  apply only_one_as_good; [exact I | |].
  - apply (only_one_from _ _ _ (flat_map (lex1 SkipBad) (bs "a@b>"))); vm_compute; reflexivity.
  - apply (finish_alive _ _ _ (flat_map (lex1 SkipBad) (bs "a@b>"))). apply try_alt_spec. vm_compute. reflexivity.
Qed.

(** Pending rule functions: an address, in an address list of the obsolete form, in the start rule; and a
    list of states that cannot be pending. *)
Example C61_linked : linked (rule_of (decision_state 66)) [864; 631]%N /\ ~ linked (rule_of (decision_state 66)) [631; 864]%N.
Proof. split; [vm_compute; auto|]. intros [H _]. vm_compute in H. discriminate. Qed.
