(** C48, C49: the generated lexer and parser read exactly the language of the grammar. *)
From Coq Require Import String List NArith ZArith Bool Arith Lia.
From Verif Require Import Lexer Grammar Utf8 Strs Mime GoTime Parser Spec ParserFacts Static Cfws First LexFacts Walker Api GenSyntax GenAtn GenCode GenRun GenShape GenNet GenCheck GenFacts GenLex GenWit.
Import ListNotations.

(** ** Statements *)

(** The two rule functions that parser.go calls (parser.go:32, parser.go:55). *)
Definition start_rule (r : rule) : Prop := r = R_addressList \/ r = R_dateTime.

(** A token stream: end-of-file is its last token and no other. *)
Definition stream (w : word) : Prop := exists u e, w = u ++ [e] /\ tt e = T_EOF /\ Forall (fun t => tt t <> T_EOF) u.

(** ParseAddressList and ParseDateTime as parser.go writes them, but on the generated lexer and parser: for
    the token stream [w] that the lexer's network yields, and with the rule function run with depth [n].
    [None]: the depth was too small. *)
Definition finish {A} (nores : A) (get : wres -> option A) (e : env) (o : outcome) : option (Api.outcome A) :=
  match o with
  | OutOfFuel => None
  | Failed => Some (Ret nores (Some ESyntax))
  | Done f _ _ =>
      match f with
      | [t] =>
          match walk (wenv_of e) t init_w with
          | Some st => match get (Walker.res st) with Some v => Some (Ret v (err st)) | None => Some Panic end
          | None => Some Panic
          end
      | _ => Some Panic
      end
  end.

Definition generated {A} (nores : A) (get : wres -> option A) (rt : runtime) (n : nat) (e : env) (r : rule) (w : word) : option (Api.outcome A) :=
  finish nores get e (call rt n r w).

Definition generated_list (rt : runtime) (n : nat) (e : env) (w : word) : option (Api.outcome slice) :=
  generated None (fun x => match x with ResList s => Some s | _ => None end) rt n e R_addressList w.

Definition generated_time (rt : runtime) (n : nat) (e : env) (w : word) : option (Api.outcome time) :=
  generated zero_time (fun x => match x with ResTime v => Some v | _ => None end) rt n e R_dateTime w.

(** ** Proofs *)
Lemma context_start r : start_rule r -> context r [] [].
Proof.
  intros H. constructor; [constructor| |exact I]. cbn [concat lang_stack]. intros v <-. cbn [la].
  destruct H as [-> | ->]; apply memb_In; vm_compute; reflexivity.
Qed.

Definition depth (r : rule) (w : word) : nat := S (length w) * BC + rks (code r).

Lemma start_last r w : start_rule r -> lang (body r) w -> exists u e, w = u ++ [e] /\ tt e = T_EOF.
Proof.
  intros H L. assert (N0 : nullable (body r) = false) by (destruct H as [-> | ->]; vm_compute; reflexivity).
  destruct (rev w) as [|e u] eqn:E.
  - assert (w = []) as -> by (rewrite <- (rev_involutive w), E; reflexivity). apply lang_nullable in L. congruence.
  - assert (w = rev u ++ [e]) as -> by (rewrite <- (rev_involutive w), E; reflexivity).
    exists (rev u), e. split; [reflexivity|]. apply last_lang in L.
    assert (S0 : subset (lastT (body r)) [T_EOF] = true) by (destruct H as [-> | ->]; vm_compute; reflexivity).
    apply (subset_In _ _ _ S0) in L. destruct L as [L|[]]. congruence.
Qed.

Lemma stream_split w a b : stream w -> w = a ++ b -> (exists u e, a = u ++ [e] /\ tt e = T_EOF) -> b = [].
Proof.
  intros (v & e & -> & He & Hv) E (u & e' & -> & He'). destruct (rev b) as [|x b'] eqn:Eb.
  - rewrite <- (rev_involutive b), Eb. reflexivity.
  - exfalso. assert (b = rev b' ++ [x]) as -> by (rewrite <- (rev_involutive b), Eb; reflexivity).
    rewrite app_assoc in E. apply app_inj_tail in E as [-> _]. rewrite Forall_forall in Hv.
    apply (Hv e'); [|exact He']. apply in_or_app. left. apply in_or_app. right. left. reflexivity.
Qed.

Lemma start_total r w n : depth r w <= n -> every ends (start n r w).
Proof.
  intros Hn. unfold start. eapply every_bind; [apply (run_total n _ _ _ _ (enter_state r) [] w (code_chk r) (code_shallow r) Hn)|].
  intros [f c w'| |] H; [discriminate | discriminate | exact H].
Qed.

Lemma start_sound r w n : every (fun o => match o with Done f c w' => exists t, f = [t] /\ derives (Nt r) [t] /\ w = yield t ++ w' | _ => True end) (start n r w).
Proof.
  unfold start. eapply every_bind; [apply (run_sound n _ _ _ _ (enter_state r) [] w (code_chk r))|].
  intros [f0 c0 w0| |] H; [|exact I|exact I]. destruct H as [D ->]. exists (Node r f0). split; [reflexivity|]. split; [|reflexivity].
  constructor. eapply derives_geqv; [|apply shape]. exact (dl_seqs _ _ D).
Qed.

Lemma start_follows r w n t : start_rule r -> selected r w t -> every (follows [t] []) (start n r w).
Proof.
  intros Hr H. unfold start.
  pose proof (selected_lang _ _ _ H) as L. inversion H as [ | |r0 V w0 f w' Hs| | | | | ]; subst.
  assert (L' : lang_stack (gxl (code r)) w).
  { pose proof (lang_stack_seqs (gxl (code r)) [] w) as Q. rewrite app_nil_r in Q. apply Q. exists w, []. rewrite app_nil_r. split; [reflexivity|].
    split; [|reflexivity]. eapply lang_geqv; [apply geqv_sym, shape|]. apply lang_nt. exact L. }
  pose proof (sel_geqv _ _ _ _ _ Hs _ (geqv_sym _ _ (shape r))) as Hg.
  assert (Hl : lsel (gxl (code r)) [] w f []) by (apply sel_seqs; exact Hg).
  eapply every_bind; [apply (run_follows n (code r) None [] r [] [] (enter_state r) w f [])|].
  - exact (code_chk r).
  - discriminate.
  - apply context_start. exact Hr.
  - cbn [concat app]. rewrite app_nil_r. exact L'.
  - cbn [concat app]. exact Hl.
  - intros o [->|[c ->]]; [left; reflexivity | right; exists c; reflexivity].
Qed.

(** How the rule function of a start rule ends. *)
Definition verdict (r : rule) (w : word) (o : outcome) : Prop :=
  match o with
  | Done f _ w' => exists t, f = [t] /\ w' = [] /\ selected r w t
  | Failed => ~ lang (Nt r) w
  | OutOfFuel => False
  end.

(** Whatever allowed replies it gets, the rule function of a start rule, on a token stream, builds the tree that
    the specification selects if the stream is a sentence of the rule, and reports an error if it is not. *)
Theorem C48_all_replies r w n : start_rule r -> stream w -> depth r w <= n -> every (verdict r w) (start n r w).
Proof.
  intros Hr Hw Hn. pose proof (every_and _ _ _ (start_total r w n Hn) (start_sound r w n)) as E.
  destruct (parse r w) as [t|] eqn:P.
  - apply parse_selected in P. pose proof (every_and _ _ _ E (start_follows r w n t Hr P)) as F.
    eapply every_mono; [|exact F]. intros o [[H1 _] [->|[c ->]]]; [exfalso; apply H1; reflexivity|]. exists t. auto.
  - apply parse_none in P. eapply every_mono; [|exact E]. intros [f c w'| |] [H1 H2]; [|exact P|exact (H1 eq_refl)].
    exfalso. destruct H2 as (t & -> & D & Ew). apply P.
    assert (w' = []) as ->.
    { apply (stream_split w (yield t) w' Hw Ew). apply (start_last r); [exact Hr|]. apply lang_nt. exists [t]. split; [exact D | apply app_nil_r]. }
    exists [t]. split; [exact D|]. rewrite Ew. reflexivity.
Qed.

(** The rule function of a start rule, on a token stream: it builds the tree that the specification selects
    if the stream is a sentence of the rule, and reports an error if it is not. *)
Theorem C48_generated_parser rt r w : runtime_ok rt -> start_rule r -> stream w ->
  exists n0, forall n, n0 <= n ->
    (forall t, (exists c, call rt n r w = Done [t] c []) <-> selected r w t) /\
    (call rt n r w = Failed <-> ~ lang (Nt r) w) /\
    (call rt n r w = Failed \/ exists t c, call rt n r w = Done [t] c []).
Proof.
  intros K Hr Hw. exists (depth r w). intros n Hn. pose proof (every_exec rt _ K _ (C48_all_replies r w n Hr Hw Hn)) as V.
  fold (call rt n r w) in V. destruct (call rt n r w) as [f c w'| |]; cbn [verdict] in V; [| |contradiction].
  - destruct V as (t & -> & -> & S0). split; [|split].
    + intros t'. split; [intros (c' & [= -> _]); exact S0 | intros S1; exists c; destruct (sel_det _ _ _ _ _ S0 _ _ S1) as [[= ->] _]; reflexivity].
    + split; [discriminate|]. intros NL. exfalso. apply NL. eapply selected_lang. exact S0.
    + right. eauto.
  - split; [|split].
    + intros t'. split; [intros (c' & [=]) | intros S1; exfalso; apply V; eapply selected_lang; exact S1].
    + split; auto.
    + left. reflexivity.
Qed.

Lemma call_parse rt r w : runtime_ok rt -> start_rule r -> stream w ->
  exists n0, forall n, n0 <= n ->
    match parse r w with
    | Some t => exists c, call rt n r w = Done [t] c []
    | None => call rt n r w = Failed
    end.
Proof.
  intros K Hr Hw. destruct (C48_generated_parser rt r w K Hr Hw) as [n0 H]. exists n0. intros n Hn. destruct (H n Hn) as (H1 & H2 & _).
  destruct (parse r w) as [t|] eqn:E.
  - apply H1. apply parse_selected. exact E.
  - apply H2. apply parse_none. exact E.
Qed.

Lemma lex_stream m rs : stream (lex m rs).
Proof.
  exists (flat_map (lex1 m) rs), eof_tok. split; [reflexivity|]. split; [reflexivity|].
  induction rs as [|c rs IH]; [constructor|]. cbn [flat_map]. apply Forall_app. split; [|exact IH].
  unfold lex1. destruct (lex_rune c) as [t|] eqn:E.
  - constructor; [|constructor]. apply lex_types in E as [E _]. exact E.
  - destruct m; [constructor|]. constructor; [|constructor]. cbn. discriminate.
Qed.

Lemma generated_done {A} nores (get : wres -> option A) rt n e r w t c : call rt n r w = Done [t] c [] ->
  generated nores get rt n e r w =
  match walk (wenv_of e) t init_w with
  | Some st => match get (Walker.res st) with Some v => Some (Ret v (err st)) | None => Some Panic end
  | None => Some Panic
  end.
Proof. intros H. unfold generated, finish. rewrite H. reflexivity. Qed.

Lemma generated_failed {A} nores (get : wres -> option A) rt n e r w : call rt n r w = Failed ->
  generated nores get rt n e r w = Some (Ret nores (Some ESyntax)).
Proof. intros H. unfold generated, finish. rewrite H. reflexivity. Qed.

Lemma list_cases e input : input <> [] ->
  ParseAddressList e input = match parse R_addressList (tokens e input) with
    | None => Ret None (Some ESyntax)
    | Some t => match walk (wenv_of e) t init_w with
        | Some st => match Walker.res st with ResList s => Ret s (err st) | _ => Panic end
        | None => Panic end
    end.
Proof. destruct input; [contradiction | reflexivity]. Qed.

Lemma time_cases e input : input <> [] ->
  ParseDateTime e input = match parse R_dateTime (tokens e input) with
    | None => Ret zero_time (Some ESyntax)
    | Some t => match walk (wenv_of e) t init_w with
        | Some st => match Walker.res st with ResTime v => Ret v (err st) | _ => Panic end
        | None => Panic end
    end.
Proof. destruct input; [contradiction | reflexivity]. Qed.

(** What the exported functions return is what they return on the generated lexer and parser. *)
Theorem C48_exported_functions_on_generated_code rt e input w :
  runtime_ok rt -> input <> [] -> scans (bad_rune e) (decode input) w ->
  exists n0, forall n, n0 <= n ->
    generated_list rt n e w = Some (ParseAddressList e input) /\
    generated_time rt n e w = Some (ParseDateTime e input).
Proof.
  intros K Hi Hw. apply scans_iff in Hw. subst w. change (lex (bad_rune e) (decode input)) with (tokens e input).
  destruct (call_parse rt R_addressList (tokens e input) K (or_introl eq_refl) (lex_stream _ _)) as [n1 H1].
  destruct (call_parse rt R_dateTime (tokens e input) K (or_intror eq_refl) (lex_stream _ _)) as [n2 H2].
  exists (max n1 n2). intros n Hn. specialize (H1 n ltac:(lia)). specialize (H2 n ltac:(lia)).
  rewrite (list_cases e input Hi), (time_cases e input Hi). clear Hi. split.
  - destruct (parse R_addressList (tokens e input)) as [t|].
    + destruct H1 as [c H1]. unfold generated_list. rewrite (generated_done _ _ _ _ _ _ _ _ _ H1). destruct (walk (wenv_of e) t init_w) as [st|]; [|reflexivity]. destruct (Walker.res st); reflexivity.
    + exact (generated_failed _ _ _ _ _ _ _ H1).
  - destruct (parse R_dateTime (tokens e input)) as [t|].
    + destruct H2 as [c H2]. unfold generated_time. rewrite (generated_done _ _ _ _ _ _ _ _ _ H2). destruct (walk (wenv_of e) t init_w) as [st|]; [|reflexivity]. destruct (Walker.res st); reflexivity.
    + exact (generated_failed _ _ _ _ _ _ _ H2).
Qed.

(** The lexer's network cuts every input into single characters: each code point up to U+FFFF is one token,
    of the type that the lexer grammar gives it, and no other token can be read. *)
Theorem C49_generated_lexer c rs t u rest :
  lexeme (c :: rs) t u rest <-> lex_rune c = Some t /\ u = [c] /\ rest = rs.
Proof. apply lexeme_iff. Qed.

Lemma lex_rune_some c : (exists t, lex_rune c = Some t) <-> (c <= 65535)%N.
Proof.
  assert (Low : forallb (fun n => match lex_rune (N.of_nat n) with Some _ => true | None => false end) (seq 0 128) = true) by (vm_compute; reflexivity).
  destruct (N.le_gt_cases 128 c) as [H|H].
  - rewrite <- find_row_lex, (find_row_high c H rows); [|vm_compute; reflexivity].
    replace (existsb (fun x => N.eqb (fst x) T_UTF8NonAscii) rows) with true by (vm_compute; reflexivity). rewrite andb_true_r.
    destruct (N.leb_spec c 65535); split; intros; try (exists T_UTF8NonAscii; reflexivity); try lia; try assumption. destruct H1 as [t [=]].
  - rewrite forallb_forall in Low. specialize (Low (N.to_nat c)). rewrite N2Nat.id in Low.
    split; [lia|]. intros _. destruct (lex_rune c) as [t|]; [exists t; reflexivity|]. discriminate Low. apply in_seq. lia.
Qed.

(** Which inputs have a first token, and the whole token stream. *)
Theorem C49_every_character_is_a_token c rs : (exists t u rest, lexeme (c :: rs) t u rest) <-> (c <= 65535)%N.
Proof.
  rewrite <- lex_rune_some. split.
  - intros (t & u & rest & H). apply lexeme_iff in H as [H _]. exists t. exact H.
  - intros [t H]. exists t, [c], rs. apply lexeme_iff. auto.
Qed.

Theorem C49_token_stream e input w : scans (bad_rune e) (decode input) w <-> w = tokens e input.
Proof. apply scans_iff. Qed.


(** ** The hypotheses can be met, and the generated code can be run *)
Definition env1 : env := mkEnv (mkWenv 2020%Z None) SkipBad.

Example C48_runtime : runtime_ok some_runtime.
Proof. exact some_runtime_ok. Qed.

Example C48_list : generated_list some_runtime 1000 env1 (tokens env1 (bs "A B <a@b>, g: c@d;")) =
  Some (Ret (Some [mkAddr (bs "A B") (bs "a@b"); mkAddr [] (bs "c@d")]) None).
Proof. vm_compute. reflexivity. Qed.

Example C48_error : generated_list some_runtime 1000 env1 (tokens env1 (bs "a@")) = Some (Ret None (Some ESyntax)).
Proof. vm_compute. reflexivity. Qed.

Example C48_time : generated_time some_runtime 1000 env1 (tokens env1 (bs "1 Jan 2020 10:00 Z")) =
  Some (ParseDateTime env1 (bs "1 Jan 2020 10:00 Z")).
Proof. vm_compute. reflexivity. Qed.

Example C48_depth : exists w n0, scans SkipBad (decode (bs "a@b")) w /\ forall n, n0 <= n ->
  generated_list some_runtime n env1 w = Some (Ret (Some [mkAddr [] (bs "a@b")]) None).
Proof.
  exists (tokens env1 (bs "a@b")). destruct (C48_exported_functions_on_generated_code some_runtime env1 (bs "a@b") (tokens env1 (bs "a@b")) some_runtime_ok ltac:(discriminate)) as [n0 H].
  { apply (C49_token_stream env1). reflexivity. }
  exists n0. split; [apply (C49_token_stream env1); reflexivity|]. intros n Hn. destruct (H n Hn) as [-> _]. vm_compute. reflexivity.
Qed.

Example C49_met : lexeme [97; 64]%N T_A [97]%N [64]%N /\ ~ exists t u rest, lexeme [128512; 64]%N t u rest.
Proof.
  split; [apply C49_generated_lexer; auto|]. rewrite C49_every_character_is_a_token. intros H. discriminate H || (apply H; reflexivity).
Qed.
