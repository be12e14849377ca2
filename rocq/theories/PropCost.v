(** C63: the work of a call is bounded. *)
From Coq Require Import String List NArith ZArith Bool Arith Lia Relations.
From Verif Require Import Lexer Grammar Utf8 Strs Mime GoTime Parser Spec ParserFacts Static Cfws First LexFacts Walker Api GenSyntax GenAtn GenCode GenRun GenShape GenNet GenCheck GenFacts GenLex GenWit GenPredict GenCost GenCache PropGen PropPredict PropCache PropSize.
Import ListNotations.

(** ** Statements *)

(** The most requests that a call makes: AdaptivePredict and Sync together, on an input of [n] bytes. *)
Definition max_requests (n : nat) : nat := 600 + 320 * n.

(** The most steps that a call takes on the shared tables: every prediction reads at most the tokens that are left. *)
Definition max_steps (n : nat) : nat := max_requests n * (n + 3).

(** ** Proofs *)
Lemma tokens_length e input : length (tokens e input) <= S (length input).
Proof.
  unfold tokens, lex. rewrite app_length. cbn [length]. pose proof (decode_length input) as D. revert D.
  generalize (length input) as l. intros l D. assert (H : forall rs, length (flat_map (lex1 (bad_rune e)) rs) <= length rs).
  { induction rs as [|c rs IH]; [apply le_n|]. cbn [flat_map]. rewrite app_length. cbn [length].
    assert (length (lex1 (bad_rune e) c) <= 1) by (unfold lex1; destruct (lex_rune c); [apply le_n | destruct (bad_rune e); cbn; lia]). lia. }
  specialize (H (decode input)). lia.
Qed.

Lemma start_price f : look 0 price_table (rule_of_func f) <= 272.
Proof. apply Nat.leb_le. destruct f; vm_compute; reflexivity. Qed.

(** Whatever the replies: the number of requests, and the number of nodes of the tree that is built, grow at most
    linearly with the input.  In particular the parser never tries an alternative and then another one. *)
Theorem C63_linear f e input n m o : asks (start n (rule_of_func f) (tokens e input)) m o ->
  m <= max_requests (length input) /\ match o with Done t _ _ => m + size t <= max_requests (length input) | _ => True end.
Proof.
  intros H. apply C63_requests in H. pose proof (start_price f) as P. pose proof (tokens_length e input) as L. unfold max_requests, token_price in *.
  destruct o as [t c w'| |]; split; auto; lia.
Qed.

Lemma some_reply p : exists m o, asks p m o.
Proof.
  induction p as [o|d st w k IH|n t k IH].
  - exists 0, o. constructor.
  - destruct (IH (first_alt d st w)) as (m & o & H). exists (S m), o. eapply q_ask; [|exact H]. apply C61_answers_are_right, some_answer.
  - destruct (IH false) as (m & o & H). exists (S m), o. eapply q_test; [|exact H]. intros _. reflexivity.
Qed.

(** [i] steps have been taken and [b] are enough for all. *)
Definition within (l b i : nat) (t : thread) : Prop :=
  match t with
  | Running p => small l p /\ forall m o, asks p m o -> i + m * (l + 2) <= b
  | Reading d st w k id u v => (forall r, right d st w r -> small l (k r)) /\
      forall r m o, right d st w r -> asks (k r) m o -> i + S (length v) + m * (l + 2) <= b
  end.

Lemma within_now l b i t : within l b i t -> i <= b.
Proof.
  destruct t as [p|d st w k id u v]; cbn [within]; intros [_ H].
  - destruct (some_reply p) as (m & o & A). specialize (H m o A). lia.
  - destruct (some_reply (k (first_alt d st w))) as (m & o & A). specialize (H _ m o (C61_answers_are_right _ _ _ _ (some_answer d st w)) A). lia.
Qed.

Lemma step_within P c t c' t' l b i : step c t c' t' -> sound c -> fine P c t -> within l b i t -> within l b (S i) t'.
Proof.
  intros H K F.
  assert (Go : forall d st w k (v : word) r, (forall r, right d st w r -> small l (k r)) /\ (forall r m o, right d st w r -> asks (k r) m o -> i + S (length v) + m * (l + 2) <= b) ->
    right d st w r -> within l b (S i) (Running (k r))).
  { intros d st w k v r [G1 G2] R. split; [apply G1; exact R|]. intros m o A. specialize (G2 r m o R A). lia. }
  assert (Ro : forall d st w k id', length w <= l /\ (forall r, right d st w r -> small l (k r)) ->
    (forall m o, asks (Ask d st w k) m o -> i + m * (l + 2) <= b) -> within l b (S i) (Reading d st w k id' [] w)).
  { intros d st w k id' [G1 G2] G3. split; [exact G2|]. intros r m o R A. specialize (G3 (S m) o (q_ask _ _ _ _ _ _ _ R A)). cbn [Nat.mul] in G3. lia. }
  destruct H as [c d st w k id E | c d st w k nd S0 D | c d st w k id u x v id' E | c d st w k id u x v o E R
    | c d st w k id u x v nd id' nd' E E' C | c d st w k id u x v nd nd' E C D | c d st w k id u x v nd o E B R
    | c d st w k id u v nd i0 E A | c d st w k id u v o A | c n t k b0 Fr]; intros W.
  - destruct W as [W1 W2]. apply Ro; assumption.
  - destruct W as [W1 W2]. apply Ro; assumption.
  - destruct W as [W1 W2]. split; [exact W1|]. intros r m o R A. specialize (W2 r m o R A). cbn [length] in W2. lia.
  - destruct F as (-> & _ & A). apply (Go d st (u ++ x :: v) k (x :: v)); [exact W|]. destruct (s_err _ K _ _ E) as (nd & E1 & B). exact (break_right d st u x v o nd c id E1 B R A).
  - destruct W as [W1 W2]. split; [exact W1|]. intros r m o R A. specialize (W2 r m o R A). cbn [length] in W2. lia.
  - destruct W as [W1 W2]. split; [exact W1|]. intros r m o R A. specialize (W2 r m o R A). cbn [length] in W2. lia.
  - destruct F as (-> & _ & A). apply (Go d st (u ++ x :: v) k (x :: v)); [exact W|]. exact (break_right d st u x v o nd c id E B R A).
  - destruct F as (-> & _ & A0). apply (Go d st (u ++ v) k v); [exact W|]. exact (first_right d st u v i0 nd c id K E A A0).
  - apply (Go d st w k v); [exact W|]. apply C61_answers_are_right. apply a_full. exact A.
  - destruct W as [W1 W2]. split; [apply W1; exact Fr|]. intros m o A. specialize (W2 (S m) o (q_test _ _ _ _ _ _ Fr A)). cbn [Nat.mul] in W2. lia.
Qed.

Definition thrifty (j : job) : Prop :=
  within (length (tokens (j_env j) (j_input j))) (max_steps (length (j_input j))) (j_steps j) (j_thread j).

Lemma sys_thrifty s s' : sys_step s s' -> sound (fst s) -> Forall (good (fst s)) (snd s) -> Forall thrifty (snd s) -> Forall thrifty (snd s').
Proof.
  intros [c js f e input w n Hi Hw Hn | c js1 f e input t i js2 c' t' S0] K G T; cbn [fst snd] in *.
  - apply Forall_app. split; [exact T|]. constructor; [|constructor]. apply scans_iff in Hw. subst w. unfold thrifty. cbn [j_env j_input j_thread j_steps].
    change (lex (bad_rune e) (decode input)) with (tokens e input). split; [apply start_small|]. intros m o A. apply C63_linear in A. destruct A as [A _].
    pose proof (tokens_length e input) as L. unfold max_steps. apply Nat.mul_le_mono; [exact A | lia].
  - apply Forall_app in T. destruct T as [T1 T2]. pose proof (Forall_inv T2) as T3. apply Forall_inv_tail in T2.
    apply Forall_app in G. destruct G as [_ G]. apply Forall_inv in G.
    apply Forall_app. split; [exact T1|]. constructor; [|exact T2]. unfold thrifty, good in *. cbn [j_func j_env j_input j_thread j_steps] in *.
    exact (step_within _ _ _ _ _ _ _ _ S0 K G T3).
Qed.

(** In every history and every schedule a call takes at most so many steps, whatever other calls do to the shared
    tables between them. *)
Theorem C63_steps c js f e input t i : reachable (c, js) -> In (mkJob f e input t i) js -> i <= max_steps (length input).
Proof.
  intros H Hj. assert (G : forall s s', clos_refl_trans_1n _ sys_step s s' ->
    sound (fst s) -> Forall (good (fst s)) (snd s) -> Forall thrifty (snd s) -> Forall thrifty (snd s')).
  { intros s s'. induction 1 as [s|s1 s2 s3 H1 _ IH]; [auto|]. intros K G T. destruct (sys_keeps _ _ H1 K G) as [K' G'].
    apply IH; [exact K' | exact G' | exact (sys_thrifty _ _ H1 K G T)]. }
  specialize (G _ _ H empty_sound (Forall_nil _) (Forall_nil _)). cbn [snd] in G. rewrite Forall_forall in G. exact (within_now _ _ _ _ (G _ Hj)).
Qed.

(** ** The hypotheses can be met *)

(** A call that is accepted: it makes requests, and builds a tree. *)
Example C63_met e : exists m t c, 1 <= m /\
  asks (start (depth R_addressList (tokens e (bs "a@b"))) (rule_of_func ParseAddressList_) (tokens e (bs "a@b"))) m (Done [t] c []) /\ 1 <= size [t].
Proof.
  set (w := tokens e (bs "a@b")). destruct (some_reply (start (depth R_addressList w) R_addressList w)) as (m & o & A).
  pose proof (asks_every _ _ _ _ A (C48_all_replies R_addressList w _ (or_introl eq_refl) (lex_stream _ _) (le_n _))) as V.
  assert (P : exists t, parse R_addressList w = Some t) by (unfold w, tokens; destruct (bad_rune e); vm_compute; eauto).
  destruct P as [t P]. apply verdict_parse in V. rewrite P in V. destruct V as [c ->]. exists m, t, c. split; [|split; [exact A|]].
  - assert (B : exists k, start (depth R_addressList w) R_addressList w = Test 634 (la w) k).
    { assert (D : exists q, depth R_addressList w = 3 + q) by (exists (depth R_addressList w - 3); unfold depth, BC; lia).
      destruct D as [q ->]. destruct (list_begins q w) as (k & _ & -> & _). exists k. reflexivity. }
    destruct B as [k B]. rewrite B in A. inversion A. lia.
  - apply parse_selected in P. inversion P; subst. cbn [size]. rewrite nodes_node. lia.
Qed.

(** Steps are taken: the state of [C62_two_calls]. *)
Example C63_steps_met e : exists c js t, reachable (c, js) /\ In (mkJob ParseAddressList_ e (bs "a@b") t 3) js.
Proof.
  destruct (C62_two_calls e e) as (c & j1 & j2 & w1 & k1 & v1 & w2 & k2 & v2 & R & _ & _ & _ & -> & ->). eexists c, _, _. split; [exact R|].
  left. reflexivity.
Qed.
