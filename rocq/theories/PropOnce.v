(** C62, C63, continued: the shared tables are made once, by the first calls.

    NewRFC5322Lexer and NewRFC5322Parser make their tables through a sync.Once (parser/rfc5322_lexer.go:202-218,
    parser/rfc5322_parser.go:602-618).  Here any number of first calls may race for it. *)
From Coq Require Import String List NArith ZArith Bool Arith Lia Relations.
From Verif Require Import Lexer Grammar Utf8 Strs Mime GoTime Parser Spec ParserFacts Static Cfws First LexFacts Walker Api GenSyntax GenAtn GenCode GenRun GenShape GenNet GenCheck GenFacts GenLex GenWit GenPredict GenCost GenCache GenLexCache PropGen PropPredict PropSize PropCost GenRecover GenRecEnd GenRecAsk GenRecCost GenRecShort PropRecover GenCacheRec PropCache PropProcess PropLazy.
Import ListNotations.

(** ** Statements *)

(** The static data of the lexer or of the parser: the sync.Once, and what the init function assigns.  [runs] counts
    how often the init function has begun; the code has no such variable. *)
(* /repo: parser/rfc5322_lexer.go:25-36, parser/rfc5322_parser.go:22-31; Go sync.Once: done, m *)
Record static : Type := mkStatic {
  done : bool; locked : bool;
  net : bool;                  (* atn has been assigned *)
  table : list bool;           (* decisionToDFA: for each entry whether it has been assigned *)
  runs : nat }.

(* /repo: parser/rfc5322_lexer.go:25-36, parser/rfc5322_parser.go:22-31: zero values *)
Definition blank : static := mkStatic false false false [] 0.

(** Where a call is in once.Do: before the load of done; before the lock; before the second look at done; before the
    [k]-th assignment of the init function; before the store of done; before the unlock. *)
(* /repo: parser/rfc5322_lexer.go:218, parser/rfc5322_parser.go:618; Go sync.Once.Do, doSlow *)
Inductive opc : Type := OLoad | OLock | OCheck | ORun (k : nat) | OStore | OUnlock.

(** One step in once.Do where the table has [n] entries.  The bit says that a new table has replaced the old one;
    [None] that once.Do has returned.  Simplification: the init function assigns the network, makes the table and fills
    it; the names of rules and tokens, which only messages use, are left out. *)
(* /repo: parser/rfc5322_lexer.go:38-210, :216-219, parser/rfc5322_parser.go:33-610, :616-619; Go sync.Once.Do, doSlow *)
Inductive ostep (n : nat) : static -> opc -> static -> bool -> option opc -> Prop :=
| o_fast : forall s, done s = true -> ostep n s OLoad s false None
| o_slow : forall s, done s = false -> ostep n s OLoad s false (Some OLock)
| o_lock : forall s, locked s = false ->
    ostep n s OLock (mkStatic (done s) true (net s) (table s) (runs s)) false (Some OCheck)
| o_late : forall s, done s = true -> ostep n s OCheck s false (Some OUnlock)
| o_first : forall s, done s = false ->
    ostep n s OCheck (mkStatic (done s) (locked s) (net s) (table s) (S (runs s))) false (Some (ORun 0))
| o_net : forall s, ostep n s (ORun 0) (mkStatic (done s) (locked s) true (table s) (runs s)) false (Some (ORun 1))
| o_make : forall s, ostep n s (ORun 1) (mkStatic (done s) (locked s) (net s) (repeat false n) (runs s)) true (Some (ORun 2))
| o_fill : forall s i, i < n ->
    ostep n s (ORun (2 + i)) (mkStatic (done s) (locked s) (net s) (firstn i (table s) ++ true :: skipn (S i) (table s)) (runs s)) false (Some (ORun (3 + i)))
| o_filled : forall s, ostep n s (ORun (2 + n)) s false (Some OStore)
| o_store : forall s, ostep n s OStore (mkStatic true (locked s) (net s) (table s) (runs s)) false (Some OUnlock)
| o_unlock : forall s, ostep n s OUnlock (mkStatic (done s) false (net s) (table s) (runs s)) false None.

(** The tables can be used: nothing is nil. *)
(* /repo: parser/rfc5322_lexer.go:226-227, parser/rfc5322_parser.go:626-627 *)
Definition usable (n : nat) (s : static) : Prop := net s = true /\ table s = repeat true n.

(** How many decisions the two networks have. *)
(* /repo: parser/rfc5322_lexer.go:205, parser/rfc5322_parser.go:605: len(atn.DecisionToState) *)
Definition lexer_decisions : nat := length (a_decisions lexer_atn).
Definition parser_decisions : nat := length (a_decisions parser_atn).

(** A call: in NewRFC5322Lexer, in NewRFC5322Parser, past both, or dead because something it used was nil. *)
(* /repo: parser.go:24-32, parser.go:47-55 *)
Inductive part : Type := NewLexer | NewParser.
Inductive acall : Type :=
| Opening (f : func) (e : env) (input : list byte) (p : part) (o : opc) (i : nat)
| Open (z : lazy) (i : nat)
| Crashed (f : func) (e : env) (input : list byte).

Record proc : Type := mkProc { p_lexer : static; p_parser : static; p_lcache : lcache; p_cache : cache; p_calls : list acall }.

(** What a call is after a step in once.Do. *)
(* /repo: parser.go:24-25, parser.go:47-48 *)
Definition opened (n : nat) (f : func) (e : env) (input : list byte) (p : part) (i : nat) (o : option opc) : acall :=
  match o, p with
  | Some o, _ => Opening f e input p o i
  | None, NewLexer => Opening f e input NewParser OLoad i
  | None, NewParser => Open (mkLazy f e input (LStart (decode input) []) (RRunning (rstart n (rule_of_func f) (tokens e input))) 0 0) i
  end.

(** A call begins ([None]), or the call with a number takes a step. *)
(* /repo: parser.go:17-60, parser/rfc5322_lexer.go:216-227, parser/rfc5322_parser.go:612-627, :872-892 *)
Inductive proc_step (p : policy) : option nat -> proc -> proc -> Prop :=
| y_call : forall ls ps lc c js f e input, input <> [] ->
    proc_step p None (mkProc ls ps lc c js) (mkProc ls ps lc c (js ++ [Opening f e input NewLexer OLoad 0]))
| y_new_lexer : forall ls ps lc c js1 f e input o i js2 ls' new o' n,
    ostep lexer_decisions ls o ls' new o' ->
    proc_step p (Some (length js1)) (mkProc ls ps lc c (js1 ++ Opening f e input NewLexer o i :: js2))
      (mkProc ls' ps (if new then empty_lcache else lc) c (js1 ++ opened n f e input NewLexer (S i) o' :: js2))
| y_new_parser : forall ls ps lc c js1 f e input o i js2 ps' new o' n, rdepth (rule_of_func f) (tokens e input) <= n ->
    ostep parser_decisions ps o ps' new o' ->
    proc_step p (Some (length js1)) (mkProc ls ps lc c (js1 ++ Opening f e input NewParser o i :: js2))
      (mkProc ls ps' lc (if new then empty_cache else c) (js1 ++ opened n f e input NewParser (S i) o' :: js2))
| y_lex : forall ls ps lc c js1 f e input t r h k i js2 lc' t', usable lexer_decisions ls ->
    lexer_may p (mkLazy f e input t r h k) = true -> lstep (bad_rune e) lc t lc' t' ->
    proc_step p (Some (length js1)) (mkProc ls ps lc c (js1 ++ Open (mkLazy f e input t r h k) i :: js2))
      (mkProc ls ps lc' c (js1 ++ Open (mkLazy f e input t' r (S h) k) i :: js2))
| y_parse : forall ls ps lc c js1 f e input t r h k i js2 c' r', usable parser_decisions ps ->
    parser_may p (mkLazy f e input t r h k) = true -> rstep c r c' r' ->
    proc_step p (Some (length js1)) (mkProc ls ps lc c (js1 ++ Open (mkLazy f e input t r h k) i :: js2))
      (mkProc ls ps lc c' (js1 ++ Open (mkLazy f e input t r' h (S k)) i :: js2))
| y_crash : forall ls ps lc c js1 z i js2, ~ usable lexer_decisions ls \/ ~ usable parser_decisions ps ->
    proc_step p (Some (length js1)) (mkProc ls ps lc c (js1 ++ Open z i :: js2))
      (mkProc ls ps lc c (js1 ++ Crashed (z_func z) (z_env z) (z_input z) :: js2)).

(** Everything that can happen since the process began. *)
Definition any_step (p : policy) (s s' : proc) : Prop := exists i, proc_step p i s s'.
Definition begun : proc := mkProc blank blank empty_lcache empty_cache [].
Definition happens (p : policy) (s : proc) : Prop := clos_refl_trans_1n _ (any_step p) begun s.

(** The call holds one of the two locks. *)
(* /repo: Go sync.Once.doSlow *)
Definition holds (j : acall) : Prop := exists f e input p o i, j = Opening f e input p o i /\ o <> OLoad /\ o <> OLock.

(** Steps of call [i] alone. *)
Definition own (p : policy) (i : nat) : proc -> proc -> Prop := clos_refl_trans_1n _ (proc_step p (Some i)).

(** Steps of call [i], and of calls that hold a lock. *)
Definition own_or_holder (p : policy) (i : nat) (s s' : proc) : Prop :=
  exists k, proc_step p (Some k) s s' /\ (k = i \/ exists j, nth_error (p_calls s) k = Some j /\ holds j).

(** What was called, and that the rule function has ended. *)
(* /repo: parser.go:19, parser.go:42 *)
Definition args (j : acall) : func * env * list byte :=
  match j with Opening f e input _ _ _ => (f, e, input) | Open z _ => (z_func z, z_env z, z_input z) | Crashed f e input => (f, e, input) end.
(* /repo: parser.go:31, parser.go:54 *)
Definition ended (j : acall) : Prop := exists z i o, j = Open z i /\ z_parser z = RRunning (REnd o).

(** ** Proofs: one sync.Once *)
Definition inside (o : opc) : Prop := match o with OLoad | OLock => False | _ => True end.

Lemma inside_dec o : {inside o} + {~ inside o}.
Proof. destruct o; cbn; auto. Qed.

(** The init function has not begun; or it has ended, once. *)
Definition untouched (s : static) : Prop := done s = false /\ runs s = 0.
Definition ready (n : nat) (s : static) : Prop := done s = true /\ runs s = 1 /\ usable n s.

(** What the call that holds the lock knows. *)
Definition knows (n : nat) (s : static) (o : opc) : Prop :=
  match o with
  | OCheck => untouched s \/ ready n s
  | ORun k => done s = false /\ runs s = 1 /\ (1 <= k -> net s = true) /\ (2 <= k -> k <= 2 + n /\ table s = repeat true (k - 2) ++ repeat false (n - (k - 2)))
  | OStore => done s = false /\ runs s = 1 /\ usable n s
  | OUnlock => ready n s
  | _ => False
  end.

Definition quiet (l : list (option opc)) : Prop := forall o, In (Some o) l -> ~ inside o.

Definition oinv (n : nat) (s : static) (l : list (option opc)) : Prop :=
  if locked s then exists l1 o l2, l = l1 ++ Some o :: l2 /\ quiet l1 /\ quiet l2 /\ knows n s o
  else quiet l /\ (untouched s \/ ready n s).

Lemma quiet_app l1 l2 : quiet (l1 ++ l2) <-> quiet l1 /\ quiet l2.
Proof.
  split.
  - intros H. split; intros o Ho; apply H; apply in_or_app; auto.
  - intros [H1 H2] o Ho. apply in_app_or in Ho as [Ho|Ho]; auto.
Qed.

Lemma quiet_cons x l : quiet (x :: l) <-> (forall o, x = Some o -> ~ inside o) /\ quiet l.
Proof.
  split.
  - intros H. split; [intros o ->; apply H; left; reflexivity | intros o Ho; apply H; right; exact Ho].
  - intros [H1 H2] o [Ho|Ho]; auto.
Qed.

Lemma knows_inside n s o : knows n s o -> inside o.
Proof. destruct o; cbn; auto. Qed.

(** The call that is inside holds the lock. *)
Lemma inside_holds n s l1 o l2 : oinv n s (l1 ++ Some o :: l2) -> inside o -> locked s = true /\ quiet l1 /\ quiet l2 /\ knows n s o.
Proof.
  unfold oinv. intros H I0. destruct (locked s).
  - destruct H as (m1 & o' & m2 & E & Q1 & Q2 & Kn). split; [reflexivity|].
    assert (L : length l1 = length m1).
    { destruct (Nat.lt_trichotomy (length l1) (length m1)) as [L|[L|L]]; [|exact L|]; exfalso.
      - assert (X : nth_error (l1 ++ Some o :: l2) (length l1) = Some (Some o)) by (rewrite nth_error_app2, Nat.sub_diag; [reflexivity | lia]).
        rewrite E, nth_error_app1 in X by exact L. apply nth_error_In in X. exact (Q1 o X I0).
      - assert (X : nth_error (l1 ++ Some o :: l2) (length l1) = Some (Some o)) by (rewrite nth_error_app2, Nat.sub_diag; [reflexivity | lia]).
        rewrite E, nth_error_app2 in X by lia. destruct (length l1 - length m1) as [|d] eqn:D; [lia|]. cbn [nth_error] in X. apply nth_error_In in X. exact (Q2 o X I0). }
    assert (E' : l1 = m1 /\ Some o :: l2 = Some o' :: m2).
    { clear - E L. revert m1 L E. induction l1 as [|x l1 IH]; intros [|y m1] L E; cbn in L; try lia; [split; [reflexivity | exact E]|].
      cbn [app] in E. injection E as -> E. destruct (IH m1 ltac:(lia) E) as [-> E2]. split; [reflexivity | exact E2]. }
    destruct E' as [-> E']. injection E' as -> ->. auto.
  - destruct H as [H _]. exfalso. apply quiet_app in H as [_ H]. apply quiet_cons in H as [H _]. exact (H o eq_refl I0).
Qed.

(** A call that is not inside may be replaced by another one. *)
Lemma oinv_replace n s l1 x y l2 : (forall o, x = Some o -> ~ inside o) -> (forall o, y = Some o -> ~ inside o) ->
  oinv n s (l1 ++ x :: l2) -> oinv n s (l1 ++ y :: l2).
Proof.
  intros Hx Hy. unfold oinv. destruct (locked s).
  - intros (m1 & o & m2 & E & Q1 & Q2 & Kn). pose proof (knows_inside _ _ _ Kn) as I0.
    revert m1 Q1 E. induction l1 as [|z l1 IH]; intros m1 Q1 E.
    + destruct m1 as [|z m1]; cbn [app] in E; injection E as E0 E.
      * exfalso. exact (Hx _ E0 I0).
      * apply quiet_cons in Q1 as [_ Q1]. exists (y :: m1), o, m2. split; [cbn [app]; rewrite E; reflexivity|]. split; [apply quiet_cons; auto | auto].
    + destruct m1 as [|z' m1]; cbn [app] in E; injection E as E0 E.
      * subst z. exists [], o, (l1 ++ y :: l2). split; [reflexivity|]. split; [intros ? []|]. split; [|exact Kn]. subst m2.
        apply quiet_app in Q2 as [Q2 Q3]. apply quiet_cons in Q3 as [_ Q3]. apply quiet_app. split; [exact Q2 | apply quiet_cons; auto].
      * subst z'. apply quiet_cons in Q1 as [Qz Q1]. destruct (IH m1 Q1 E) as (m1' & o' & m2' & E' & Q1' & Q2' & Kn').
        exists (z :: m1'), o', m2'. split; [cbn [app]; rewrite E'; reflexivity|]. split; [apply quiet_cons; auto | auto].
  - intros [Q H]. split; [|exact H]. apply quiet_app in Q as [Q Q2]. apply quiet_cons in Q2 as [_ Q2]. apply quiet_app. split; [exact Q | apply quiet_cons; auto].
Qed.

Lemma oinv_add n s l y : (forall o, y = Some o -> ~ inside o) -> oinv n s l -> oinv n s (l ++ [y]).
Proof.
  intros Hy. unfold oinv. destruct (locked s).
  - intros (m1 & o & m2 & -> & Q1 & Q2 & Kn). exists m1, o, (m2 ++ [y]). split; [rewrite <- app_assoc; reflexivity|]. split; [exact Q1|]. split; [|exact Kn].
    apply quiet_app. split; [exact Q2 | apply quiet_cons; split; [exact Hy | intros ? []]].
  - intros [Q H]. split; [|exact H]. apply quiet_app. split; [exact Q | apply quiet_cons; split; [exact Hy | intros ? []]].
Qed.

Lemma fill_step n i : i < n -> forall t, t = repeat true i ++ repeat false (n - i) -> firstn i t ++ true :: skipn (S i) t = repeat true (S i) ++ repeat false (n - S i).
Proof.
  intros L t ->. rewrite firstn_app, repeat_length, Nat.sub_diag, firstn_O, app_nil_r, firstn_all2 by (rewrite repeat_length; lia).
  rewrite skipn_app, repeat_length, (skipn_all2 (n := S i)) by (rewrite repeat_length; lia). cbn [app]. replace (S i - i) with 1 by lia.
  replace (n - i) with (S (n - S i)) by lia. cbn [repeat skipn]. rewrite (repeat_cons i true), <- app_assoc. reflexivity.
Qed.

Lemma ready_done n s l : oinv n s l -> done s = true -> ready n s.
Proof.
  unfold oinv. intros H D. destruct (locked s).
  - destruct H as (l1 & o & l2 & _ & _ & _ & Kn). destruct o; cbn [knows] in Kn; try contradiction.
    + destruct Kn as [[Kn _]|Kn]; [congruence | exact Kn].
    + destruct Kn as [Kn _]. congruence.
    + destruct Kn as [Kn _]. congruence.
    + exact Kn.
  - destruct H as [_ [[H _]|H]]; [congruence | exact H].
Qed.

Lemma oinv_runs n s l : oinv n s l -> runs s <= 1.
Proof.
  unfold oinv, untouched, ready. intros H. destruct (locked s).
  - destruct H as (l1 & o & l2 & _ & _ & _ & Kn). destruct o; cbn [knows] in Kn; unfold untouched, ready in Kn; intuition lia.
  - intuition lia.
Qed.

Lemma ostep_keeps n s o s' new o' l1 l2 : ostep n s o s' new o' -> oinv n s (l1 ++ Some o :: l2) ->
  oinv n s' (l1 ++ o' :: l2) /\ (o' = None -> ready n s') /\ (done s = true -> done s' = true /\ new = false) /\
  (new = true -> done s = false /\ done s' = false).
Proof.
  intros S0 H.
  assert (Out : forall a b, ~ inside a -> ~ inside b -> oinv n s (l1 ++ Some a :: l2) -> oinv n s (l1 ++ Some b :: l2)).
  { intros a b Ha Hb. apply oinv_replace; intros ? [= <-]; assumption. }
  assert (In0 : inside o -> forall o2, locked s' = true -> knows n s' o2 -> oinv n s' (l1 ++ Some o2 :: l2)).
  { intros I0 o2 L Kn. destruct (inside_holds _ _ _ _ _ H I0) as (_ & Q1 & Q2 & _). unfold oinv. rewrite L. exists l1, o2, l2. auto. }
  destruct S0 as [s D | s D | s L | s D | s D | s | s | s i Hi | s | s | s].
  - split; [apply (oinv_replace n s l1 (Some OLoad) None l2); [intros ? [= <-]; auto | discriminate | exact H]|].
    split; [intros _; exact (ready_done _ _ _ H D)|]. split; [auto | discriminate].
  - split; [apply (Out OLoad OLock); auto|]. split; [discriminate|]. split; [congruence | discriminate].
  - split; [|split; [discriminate | split; [auto | discriminate]]]. unfold oinv in H |- *. cbn [locked]. rewrite L in H. destruct H as [Q H].
    apply quiet_app in Q as [Q1 Q2]. apply quiet_cons in Q2 as [_ Q2]. exists l1, OCheck, l2. split; [reflexivity|]. split; [exact Q1|]. split; [exact Q2|]. exact H.
  - destruct (inside_holds _ _ _ _ _ H Logic.I) as (L & _ & _ & Kn). split; [|split; [discriminate | split; [auto | discriminate]]].
    apply (In0 Logic.I); [exact L|]. exact (ready_done _ _ _ H D).
  - destruct (inside_holds _ _ _ _ _ H Logic.I) as (L & _ & _ & Kn). split; [|split; [discriminate | split; [congruence | discriminate]]].
    apply (In0 Logic.I); [exact L|]. cbn [knows] in Kn |- *. destruct Kn as [[_ R]|[D' _]]; [|congruence]. cbn [done runs net table]. rewrite R. split; [exact D|]. split; [reflexivity|]. split; lia.
  - destruct (inside_holds _ _ _ _ _ H Logic.I) as (L & _ & _ & (D & R & N & T)). split; [|split; [discriminate | split; [congruence | discriminate]]].
    apply (In0 Logic.I); [exact L|]. cbn [knows done runs net table]. split; [exact D|]. split; [exact R|]. split; [reflexivity | lia].
  - destruct (inside_holds _ _ _ _ _ H Logic.I) as (L & _ & _ & (D & R & N & T)). split; [|split; [discriminate | split; [congruence | intros _; split; exact D]]].
    apply (In0 Logic.I); [exact L|]. cbn [knows done runs net table]. split; [exact D|]. split; [exact R|]. split; [intros _; apply N; lia|]. intros _. split; [lia|]. cbn [Nat.sub repeat app]. rewrite Nat.sub_0_r. reflexivity.
  - destruct (inside_holds _ _ _ _ _ H Logic.I) as (L & _ & _ & (D & R & N & T)). split; [|split; [discriminate | split; [congruence | discriminate]]].
    apply (In0 Logic.I); [exact L|]. cbn [knows done runs net table]. split; [exact D|]. split; [exact R|]. split; [intros _; apply N; lia|]. intros _. split; [lia|].
    destruct T as [_ T]; [lia|]. replace (2 + i - 2) with i in T by lia. replace (3 + i - 2) with (S i) by lia. apply fill_step; [exact Hi | exact T].
  - destruct (inside_holds _ _ _ _ _ H Logic.I) as (L & _ & _ & (D & R & N & T)). split; [|split; [discriminate | split; [congruence | discriminate]]].
    apply (In0 Logic.I); [exact L|]. cbn [knows]. split; [exact D|]. split; [exact R|]. split; [apply N; lia|]. destruct T as [_ T]; [lia|]. replace (2 + n - 2) with n in T by lia.
    rewrite Nat.sub_diag in T. cbn [repeat] in T. rewrite app_nil_r in T. exact T.
  - destruct (inside_holds _ _ _ _ _ H Logic.I) as (L & _ & _ & (D & R & U)). split; [|split; [discriminate | split; [congruence | discriminate]]].
    apply (In0 Logic.I); [exact L|]. cbn [knows]. unfold ready. cbn [done runs]. split; [reflexivity|]. split; [exact R | exact U].
  - destruct (inside_holds _ _ _ _ _ H Logic.I) as (L & Q1 & Q2 & (D & R & U)). split; [|split; [intros _; split; [exact D | split; [exact R | exact U]] | split; [auto | discriminate]]].
    unfold oinv. cbn [locked]. split; [apply quiet_app; split; [exact Q1 | apply quiet_cons; split; [discriminate | exact Q2]]|]. right. split; [exact D | split; [exact R | exact U]].
Qed.

(** The steps that are left in once.Do. *)
Definition oleft (n : nat) (o : opc) : nat :=
  match o with OLoad => n + 8 | OLock => n + 7 | OCheck => n + 6 | ORun k => n + 5 - k | OStore => 2 | OUnlock => 1 end.

Lemma ostep_less n s o s' new o' l1 l2 : ostep n s o s' new o' -> oinv n s (l1 ++ Some o :: l2) ->
  match o' with None => 1 <= oleft n o | Some o' => oleft n o' < oleft n o end.
Proof. intros [ ] _; cbn [oleft]; lia. Qed.

(** Only a lock that is held stops a call. *)
Lemma ogoes n s o l1 l2 : oinv n s (l1 ++ Some o :: l2) ->
  (o = OLock /\ locked s = true) \/ exists s' new o', ostep n s o s' new o'.
Proof.
  intros H. destruct o as [| | |k| |].
  - right. destruct (done s) eqn:D; eexists _, _, _; [apply o_fast | apply o_slow]; exact D.
  - destruct (locked s) eqn:L; [left; auto|]. right. eexists _, _, _. apply o_lock. exact L.
  - right. destruct (done s) eqn:D; eexists _, _, _; [apply o_late | apply o_first]; exact D.
  - right. destruct (inside_holds _ _ _ _ _ H Logic.I) as (_ & _ & _ & (_ & _ & _ & T)).
    destruct k as [|[|k]]; [eexists _, _, _; apply o_net | eexists _, _, _; apply o_make|].
    destruct T as [T _]; [lia|]. destruct (Nat.eq_dec k n) as [->|Ne]; eexists _, _, _; [apply o_filled | apply (o_fill n s k); lia].
  - right. eexists _, _, _. apply o_store.
  - right. eexists _, _, _. apply o_unlock.
Qed.

(** ** Proofs: the process *)
Definition at_part (q : part) (j : acall) : option opc :=
  match j, q with
  | Opening _ _ _ NewLexer o _, NewLexer => Some o
  | Opening _ _ _ NewParser o _, NewParser => Some o
  | _, _ => None
  end.
Notation pcs q js := (map (at_part q) js).

Definition csane (s : proc) (j : acall) : Prop :=
  match j with
  | Opening f e input NewLexer o i => input <> [] /\ i + oleft lexer_decisions o <= lexer_decisions + 8
  | Opening f e input NewParser o i => input <> [] /\ done (p_lexer s) = true /\ i + oleft parser_decisions o <= lexer_decisions + parser_decisions + 16
  | Open z i => done (p_lexer s) = true /\ done (p_parser s) = true /\ zsane (p_lcache s) (p_cache s) z /\ i <= lexer_decisions + parser_decisions + 16
  | Crashed _ _ _ => False
  end.

Record psane (s : proc) : Prop := mkPsane {
  k_lcache : lsound (p_lcache s);
  k_cache : sound (p_cache s);
  k_lexer : oinv lexer_decisions (p_lexer s) (pcs NewLexer (p_calls s));
  k_parser : oinv parser_decisions (p_parser s) (pcs NewParser (p_calls s));
  k_calls : Forall (csane s) (p_calls s) }.

(** Nothing is lost that a call past the init functions uses. *)
Definition grows (s s' : proc) : Prop :=
  (done (p_lexer s) = true -> done (p_lexer s') = true /\ lextends (p_lcache s) (p_lcache s')) /\
  (done (p_parser s) = true -> done (p_parser s') = true /\ extends (p_cache s) (p_cache s')).

Lemma csane_grows s s' j : grows s s' -> csane s j -> csane s' j.
Proof.
  intros [G1 G2]. destruct j as [f e input [|] o i|z i|f e input]; cbn [csane]; auto.
  - intros (H1 & H2 & H3). split; [exact H1|]. split; [apply G1; exact H2 | exact H3].
  - intros (H1 & H2 & H3 & H4). destruct (G1 H1) as [D1 X1]. destruct (G2 H2) as [D2 X2]. split; [exact D1|]. split; [exact D2|]. split; [|exact H4]. exact (zsane_more _ _ _ _ _ X1 X2 H3).
Qed.

Lemma split_csane s s' js1 j js2 j' : grows s s' -> Forall (csane s) (js1 ++ j :: js2) -> (csane s j -> csane s' j') -> Forall (csane s') (js1 ++ j' :: js2).
Proof.
  intros X G H. apply Forall_app in G as [G1 G2]. pose proof (Forall_inv G2) as G3. apply Forall_inv_tail in G2.
  assert (E : forall l, Forall (csane s) l -> Forall (csane s') l) by (intros l; apply Forall_impl; intros a; apply csane_grows; exact X).
  apply Forall_app. split; [apply E; exact G1|]. constructor; [apply H; exact G3 | apply E; exact G2].
Qed.

Lemma pcs_split q js1 j js2 : pcs q (js1 ++ j :: js2) = pcs q js1 ++ at_part q j :: pcs q js2.
Proof. rewrite map_app. reflexivity. Qed.

Lemma not_inside q j : at_part q j = None -> forall o, at_part q j = Some o -> ~ inside o.
Proof. intros -> o [=]. Qed.

Lemma opened_at q n f e input i (o' : option opc) : at_part q (opened n f e input q i o') = o'.
Proof. destruct o' as [o'|], q; reflexivity. Qed.

Lemma opened_other q q' n f e input i (o' : option opc) : q <> q' -> forall o, at_part q' (opened n f e input q i o') = Some o -> ~ inside o.
Proof. intros Ne o. destruct o' as [o'|], q, q'; cbn; try congruence. intros [= <-]. auto. Qed.

Lemma other_at q q' f e input o i : q <> q' -> at_part q' (Opening f e input q o i) = None.
Proof. destruct q, q'; cbn; congruence. Qed.

Lemma zsane_new lc c f e input n : input <> [] -> rdepth (rule_of_func f) (tokens e input) <= n ->
  zsane lc c (mkLazy f e input (LStart (decode input) []) (RRunning (rstart n (rule_of_func f) (tokens e input))) 0 0).
Proof.
  intros Hi Hn. split; [exact Hi|]. cbn [z_func z_env z_input z_lexer z_parser z_lexed z_parsed].
  pose proof (lex_stream (bad_rune e) (decode input)) as St. change (lex (bad_rune e) (decode input)) with (tokens e input) in St.
  split; [split; [reflexivity | cbn [lmost]; pose proof (decode_length input); lia]|]. split; [|split].
  - cbn [rfine]. eapply revery_mono; [|apply (rstart_verdict n _ _ (rule_start f) St Hn)]. intros o. apply rverdict_gives. exact Hi.
  - apply start_asked. exact St.
  - exists 0. split; [apply rstart_small|]. split; [lia|]. apply start_cost. exact Hn.
Qed.

Lemma proc_keeps p i s s' : proc_step p i s s' -> psane s -> psane s'.
Proof.
  intros [ls ps lc c js f e input Hi | ls ps lc c js1 f e input o i0 js2 ls' new o' n S0 | ls ps lc c js1 f e input o i0 js2 ps' new o' n Hn S0
    | ls ps lc c js1 f e input t r h k i0 js2 lc' t' U _ S0 | ls ps lc c js1 f e input t r h k i0 js2 c' r' U _ S0 | ls ps lc c js1 z i0 js2 U] [K1 K2 O1 O2 G];
    cbn [p_lexer p_parser p_lcache p_cache p_calls] in *.
  - constructor; cbn [p_lexer p_parser p_lcache p_cache p_calls].
    + exact K1.
    + exact K2.
    + rewrite map_app. apply oinv_add; [intros ? [= <-]; auto | exact O1].
    + rewrite map_app. apply oinv_add; [intros ? [=] | exact O2].
    + apply Forall_app. split; [exact G|]. constructor; [|constructor]. cbn [csane oleft]. split; [exact Hi | lia].
  - rewrite pcs_split in O1, O2. cbn [at_part] in O1, O2.
    destruct (ostep_keeps _ _ _ _ _ _ _ _ S0 O1) as (O1' & R & D & N). pose proof (ostep_less _ _ _ _ _ _ _ _ S0 O1) as L.
    constructor; cbn [p_lexer p_parser p_lcache p_cache p_calls].
    + destruct new; [apply empty_lsound | exact K1].
    + exact K2.
    + rewrite pcs_split, opened_at. exact O1'.
    + rewrite pcs_split. revert O2. apply oinv_replace; [discriminate | apply opened_other; discriminate].
    + eapply split_csane; [|exact G|].
      * split; cbn [p_lexer p_parser p_lcache p_cache].
        -- intros D0. destruct (D D0) as [D1 ->]. split; [exact D1 | apply lextends_refl].
        -- intros D0. split; [exact D0 | apply extends_refl].
      * intros [Hi B]. destruct o' as [o'|]; cbn [opened csane p_lexer].
        -- split; [exact Hi | lia].
        -- split; [exact Hi|]. split; [apply (R eq_refl)|]. cbn [oleft]. lia.
  - rewrite pcs_split in O1, O2. cbn [at_part] in O1, O2.
    destruct (ostep_keeps _ _ _ _ _ _ _ _ S0 O2) as (O2' & R & D & N). pose proof (ostep_less _ _ _ _ _ _ _ _ S0 O2) as L.
    constructor; cbn [p_lexer p_parser p_lcache p_cache p_calls].
    + exact K1.
    + destruct new; [apply empty_sound | exact K2].
    + rewrite pcs_split. revert O1. apply oinv_replace; [discriminate | apply opened_other; discriminate].
    + rewrite pcs_split, opened_at. exact O2'.
    + eapply split_csane; [|exact G|].
      * split; cbn [p_lexer p_parser p_lcache p_cache].
        -- intros D0. split; [exact D0 | apply lextends_refl].
        -- intros D0. destruct (D D0) as [D1 ->]. split; [exact D1 | apply extends_refl].
      * cbn [csane p_lexer p_parser p_lcache p_cache]. intros (Hi & Dl & B). destruct o' as [o'|]; cbn [opened csane p_lexer p_parser p_lcache p_cache].
        -- split; [exact Hi|]. split; [exact Dl | lia].
        -- split; [exact Dl|]. split; [apply (R eq_refl)|]. split; [apply zsane_new; assumption | lia].
  - rewrite pcs_split in O1, O2. cbn [at_part] in O1, O2. destruct (lstep_keeps _ _ _ _ _ S0 K1) as (K' & X & H).
    constructor; cbn [p_lexer p_parser p_lcache p_cache p_calls]; try rewrite pcs_split; try assumption.
    eapply split_csane; [|exact G|].
    + split; cbn [p_lexer p_parser p_lcache p_cache]; intros D0; (split; [exact D0|]); [exact X | apply extends_refl].
    + cbn [csane p_lexer p_parser p_lcache p_cache]. intros (D1 & D2 & (Hi & [F L] & R) & B). split; [exact D1|]. split; [exact D2|]. split; [|exact B]. split; [exact Hi|].
      cbn [z_func z_env z_input z_lexer z_parser z_lexed z_parsed] in *. split; [|exact R]. split; [apply H; exact F|].
      pose proof (lstep_less _ _ _ _ _ _ S0 K1 F). lia.
  - rewrite pcs_split in O1, O2. cbn [at_part] in O1, O2. destruct (rstep_keeps _ _ _ _ S0 K2) as (K' & X & H & H').
    constructor; cbn [p_lexer p_parser p_lcache p_cache p_calls]; try rewrite pcs_split; try assumption.
    eapply split_csane; [|exact G|].
    + split; cbn [p_lexer p_parser p_lcache p_cache]; intros D0; (split; [exact D0|]); [apply lextends_refl | exact X].
    + cbn [csane p_lexer p_parser p_lcache p_cache]. intros (D1 & D2 & (Hi & F0 & F & A & L) & B). split; [exact D1|]. split; [exact D2|]. split; [|exact B]. split; [exact Hi|].
      cbn [z_func z_env z_input z_lexer z_parser z_lexed z_parsed] in *. split; [exact F0|]. split; [apply H; exact F|]. split; [apply H'; exact A|].
      exact (rstep_within _ _ _ _ _ _ _ _ S0 K2 (ex_intro (fun P => rfine P c r) _ F) L).
  - exfalso. apply Forall_app in G as [_ G]. apply Forall_inv in G as (D1 & D2 & _). cbn [p_lexer p_parser] in *.
    destruct (ready_done _ _ _ O1 D1) as (_ & _ & U1). destruct (ready_done _ _ _ O2 D2) as (_ & _ & U2). destruct U as [U|U]; [exact (U U1) | exact (U U2)].
Qed.

Lemma steps_psane p s s' : clos_refl_trans_1n _ (any_step p) s s' -> psane s -> psane s'.
Proof. induction 1 as [s|s1 s2 s3 [i H1] _ IH]; [auto|]. intros B. apply IH. exact (proc_keeps p i s1 s2 H1 B). Qed.

Lemma happens_psane p s : happens p s -> psane s.
Proof.
  intros H. apply (steps_psane _ _ _ H). constructor; cbn [begun p_lexer p_parser p_lcache p_cache p_calls map].
  - apply empty_lsound.
  - apply empty_sound.
  - split; [intros ? [] | left; split; reflexivity].
  - split; [intros ? [] | left; split; reflexivity].
  - constructor.
Qed.

Lemma happens_csane p s j : happens p s -> In j (p_calls s) -> csane s j.
Proof. intros H Hj. apply happens_psane in H as [_ _ _ _ G]. rewrite Forall_forall in G. exact (G _ Hj). Qed.

(** However many calls race to be the first, each of the two init functions runs at most once; and no call is past it
    before it has run to its end. *)
Theorem C62_tables_made_once p s : happens p s ->
  runs (p_lexer s) <= 1 /\ runs (p_parser s) <= 1 /\
  forall z i, In (Open z i) (p_calls s) -> usable lexer_decisions (p_lexer s) /\ usable parser_decisions (p_parser s).
Proof.
  intros H. pose proof (happens_psane _ _ H) as [_ _ O1 O2 _]. split; [exact (oinv_runs _ _ _ O1)|]. split; [exact (oinv_runs _ _ _ O2)|].
  intros z i Hz. destruct (happens_csane _ _ _ H Hz) as (D1 & D2 & _). split; [apply (ready_done _ _ _ O1 D1) | apply (ready_done _ _ _ O2 D2)].
Qed.

(** No call uses a table, or an entry of a table, before it has been made. *)
Theorem C62_first_calls_do_not_crash p s f e input : happens p s -> ~ In (Crashed f e input) (p_calls s).
Proof. intros H Hj. exact (happens_csane _ _ _ H Hj). Qed.

(** A call that has ended returned what it returns when it is the only call. *)
Theorem C62_first_calls_do_not_interfere p s f e input t o h k i :
  happens p s -> In (Open (mkLazy f e input t (RRunning (REnd o)) h k) i) (p_calls s) -> gives f e o = Some (alone f e input).
Proof. intros H Hj. destruct (happens_csane _ _ _ H Hj) as (_ & _ & (_ & _ & F & _) & _). exact F. Qed.

(** The steps of a call, those of making the tables included. *)
Theorem C63_first_call_steps p s f e input t r h k i :
  happens p s -> In (Open (mkLazy f e input t r h k) i) (p_calls s) -> (Z.of_nat (i + h + k) <= 151 + call_steps (length input))%Z.
Proof.
  intros H Hj. destruct (happens_csane _ _ _ H Hj) as (_ & _ & (_ & [_ F] & _ & A & L) & B).
  change (lexer_decisions + parser_decisions + 16) with 151 in B.
  cbn [z_func z_env z_input z_lexer z_parser z_lexed z_parsed] in *. unfold call_steps.
  apply rwithin_now in L; [|exact A]. pose proof (tokens_length e input) as T. unfold most_requests in L.
  set (a := length (tokens e input)) in *. set (n := length input) in *.
  assert (600500 * (Z.of_nat a + 1) * (Z.of_nat a + 2) <= 600500 * (Z.of_nat n + 2) * (Z.of_nat n + 3))%Z by nia. lia.
Qed.

(** *** Waiting *)
Notation the_static q s := (match q with NewLexer => p_lexer s | NewParser => p_parser s end).
Notation the_count q := (match q with NewLexer => lexer_decisions | NewParser => parser_decisions end).
Notation other_part q := (match q with NewLexer => NewParser | NewParser => NewLexer end).

(** Nothing can stop the call between [js1] and [js2] in its way through once.Do: no other call is inside, or the
    tables have been made. *)
Definition unhindered (q : part) (s : proc) (js1 js2 : list acall) (o : option opc) : Prop :=
  (quiet (pcs q js1) /\ quiet (pcs q js2)) \/ (done (the_static q s) = true /\ o <> Some OLock).

Lemma psane_part q s : psane s -> oinv (the_count q) (the_static q s) (pcs q (p_calls s)).
Proof. intros [_ _ H1 H2 _]. destruct q; assumption. Qed.

(** One step of once.Do of the call after [js1]. *)
Lemma part_step p q s js1 f e input o i js2 st' new o' : p_calls s = js1 ++ Opening f e input q o i :: js2 ->
  ostep (the_count q) (the_static q s) o st' new o' ->
  exists s', proc_step p (Some (length js1)) s s' /\ the_static q s' = st' /\ the_static (other_part q) s' = the_static (other_part q) s /\
    p_calls s' = js1 ++ opened (rdepth (rule_of_func f) (tokens e input)) f e input q (S i) o' :: js2.
Proof.
  destruct s as [ls ps lc c js]. cbn [p_calls p_lexer p_parser]. intros -> S0. destruct q.
  - eexists. split; [apply (y_new_lexer p ls ps lc c js1 f e input o i js2 st' new o' (rdepth (rule_of_func f) (tokens e input)) S0)|]. auto.
  - eexists. split; [apply (y_new_parser p ls ps lc c js1 f e input o i js2 st' new o' (rdepth (rule_of_func f) (tokens e input)) (le_n _) S0)|]. auto.
Qed.

Lemma part_runs p q js1 f e input js2 : forall m s o i, oleft (the_count q) o <= m -> psane s -> p_calls s = js1 ++ Opening f e input q o i :: js2 ->
  unhindered q s js1 js2 (Some o) ->
  exists s' i', own p (length js1) s s' /\ psane s' /\ p_calls s' = js1 ++ opened (rdepth (rule_of_func f) (tokens e input)) f e input q i' None :: js2 /\
    the_static (other_part q) s' = the_static (other_part q) s.
Proof.
  induction m as [m IH] using (well_founded_induction lt_wf). intros s o i Hm K E U.
  pose proof (psane_part q s K) as O. rewrite E, pcs_split in O.
  assert (A : at_part q (Opening f e input q o i) = Some o) by (destruct q; reflexivity). rewrite A in O.
  destruct (ogoes _ _ _ _ _ O) as [[-> L]|(st' & new & o' & S0)].
  - exfalso. destruct U as [[Q1 Q2]|[_ U]]; [|exact (U eq_refl)]. unfold oinv in O. rewrite L in O. destruct O as (m1 & o & m2 & Eo & _ & _ & Kn).
    pose proof (knows_inside _ _ _ Kn) as I0. assert (X : In (Some o) (pcs q js1 ++ Some OLock :: pcs q js2)) by (rewrite Eo; apply in_or_app; right; left; reflexivity).
    apply in_app_or in X as [X|[X|X]]; [exact (Q1 _ X I0) | injection X as <-; exact I0 | exact (Q2 _ X I0)].
  - destruct (part_step p q s js1 f e input o i js2 st' new o' E S0) as (s1 & S1 & E1 & E2 & E3).
    pose proof (ostep_keeps _ _ _ _ _ _ _ _ S0 O) as (_ & _ & D & _). pose proof (ostep_less _ _ _ _ _ _ _ _ S0 O) as Ls.
    pose proof (proc_keeps _ _ _ _ S1 K) as K1.
    destruct o' as [o'|].
    + destruct (IH (oleft (the_count q) o') ltac:(lia) s1 o' (S i) (le_n _) K1 E3) as (s' & i' & R & K' & E' & E2').
      * destruct U as [U|[U1 U2]]; [left; exact U|]. right. rewrite E1. split; [apply D; exact U1|]. intros [= ->]. inversion S0; subst; congruence.
      * exists s', i'. split; [econstructor; [exact S1 | exact R]|]. split; [exact K'|]. split; [exact E' | rewrite E2'; exact E2].
    + exists s1, (S i). split; [econstructor; [exact S1 | constructor]|]. auto.
Qed.

Lemma open_runs p js1 js2 : no_deadlock p -> forall s z i, psane s -> p_calls s = js1 ++ Open z i :: js2 ->
  exists s' j, own p (length js1) s s' /\ p_calls s' = js1 ++ j :: js2 /\ args j = args (Open z i) /\ ended j.
Proof.
  intros D s [f e input t r h k] i. remember (lmost t) as n eqn:En. revert s t r h k En.
  induction n as [n IHn] using (well_founded_induction lt_wf). intros s t r. revert s t. induction (rthread_ends r) as [r _ IHr]. intros s t h k En K E.
  pose proof K as [K1 K2 O1 O2 G]. rewrite E in G. apply Forall_app in G as [_ G]. apply Forall_inv in G as (D1 & D2 & (_ & [F _] & _ & A & _) & _).
  destruct (ready_done _ _ _ O1 D1) as (_ & _ & U1). destruct (ready_done _ _ _ O2 D2) as (_ & _ & U2).
  destruct s as [ls ps lc c js]. cbn [p_calls p_lexer p_parser p_lcache p_cache] in *. subst js.
  cbn [z_func z_env z_input z_lexer z_parser z_lexed z_parsed] in *.
  set (j := mkLazy f e input t r h k) in *. destruct (D j) as [Dl Dp].
  assert (Ps : parser_may p j = true -> exists s' j', own p (length js1) (mkProc ls ps lc c (js1 ++ Open j i :: js2)) s' /\ p_calls s' = js1 ++ j' :: js2 /\ args j' = (f, e, input) /\ ended j').
  { intros M. destruct (rnot_blocked c r A) as [[o ->]|(c' & r' & S0)].
    - eexists _, _. split; [constructor|]. split; [reflexivity|]. split; [reflexivity|]. unfold j. eexists _, _, o. split; reflexivity.
    - pose proof (y_parse p ls ps lc c js1 f e input t r h k i js2 c' r' U2 M S0) as S1.
      destruct (IHr r' ltac:(exists c, c'; exact S0) _ t h (S k) En (proc_keeps _ _ _ _ S1 K) eq_refl) as (s' & j' & R & X).
      exists s', j'. split; [econstructor; [exact S1 | exact R] | exact X]. }
  destruct (parser_may p j) eqn:M; [exact (Ps eq_refl)|]. destruct Dl as [Dl|Dl]; [|exact (Ps Dl)].
  destruct (lnot_blocked _ _ _ _ K1 F) as [[w Ew]|(lc' & t' & S0)]; [specialize (Dp w Ew); congruence|].
  pose proof (y_lex p ls ps lc c js1 f e input t r h k i js2 lc' t' U1 Dl S0) as S1. pose proof (lstep_less _ _ _ _ _ _ S0 K1 F) as L.
  destruct (IHn (lmost t') ltac:(lia) _ t' r (S h) k eq_refl (proc_keeps _ _ _ _ S1 K) eq_refl) as (s' & j' & R & X).
  exists s', j'. split; [econstructor; [exact S1 | exact R] | exact X].
Qed.

Lemma own_trans p i s1 s2 s3 : own p i s1 s2 -> own p i s2 s3 -> own p i s1 s3.
Proof. intros H1 H2. apply clos_rt_rt1n. eapply rt_trans; apply clos_rt1n_rt; eassumption. Qed.

Lemma call_runs p js1 j js2 s : no_deadlock p -> psane s -> p_calls s = js1 ++ j :: js2 ->
  (forall q, unhindered q s js1 js2 (at_part q j)) -> exists s' j', own p (length js1) s s' /\ p_calls s' = js1 ++ j' :: js2 /\ args j' = args j /\ ended j'.
Proof.
  intros D K E U.
  assert (P2 : forall f e input o i s, psane s -> p_calls s = js1 ++ Opening f e input NewParser o i :: js2 -> unhindered NewParser s js1 js2 (Some o) ->
    exists s' j', own p (length js1) s s' /\ p_calls s' = js1 ++ j' :: js2 /\ args j' = (f, e, input) /\ ended j').
  { clear - D. intros f e input o i s K E U. destruct (part_runs p NewParser js1 f e input js2 _ s o i (le_n _) K E U) as (s1 & i1 & R1 & K1 & E1 & _).
    destruct (open_runs p js1 js2 D s1 _ i1 K1 E1) as (s2 & j2 & R2 & X). exists s2, j2. split; [exact (own_trans _ _ _ _ _ R1 R2) | exact X]. }
  destruct j as [f e input [|] o i|z i|f e input].
  - destruct (part_runs p NewLexer js1 f e input js2 _ s o i (le_n _) K E (U NewLexer)) as (s1 & i1 & R1 & K1 & E1 & E2).
    destruct (P2 f e input OLoad i1 s1 K1 E1) as (s2 & j2 & R2 & X).
    + destruct (U NewParser) as [U'|[U' _]]; [left; exact U' | right]. cbn [at_part] in *. rewrite E2. split; [exact U' | discriminate].
    + exists s2, j2. split; [exact (own_trans _ _ _ _ _ R1 R2) | exact X].
  - exact (P2 f e input o i s K E (U NewParser)).
  - exact (open_runs p js1 js2 D s z i K E).
  - exfalso. destruct K as [_ _ _ _ G]. rewrite E in G. apply Forall_app in G as [_ G]. apply Forall_inv in G. exact G.
Qed.

Lemma at_split (A : Type) (l : list A) i x : nth_error l i = Some x -> exists l1 l2, l = l1 ++ x :: l2 /\ length l1 = i.
Proof. apply nth_error_split. Qed.

Lemma at_mid (A : Type) (l1 : list A) x l2 : nth_error (l1 ++ x :: l2) (length l1) = Some x.
Proof. rewrite nth_error_app2, Nat.sub_diag; [reflexivity | lia]. Qed.

Lemma holds_inside q j o : at_part q j = Some o -> inside o -> holds j.
Proof.
  destruct j as [f e input r o' i|z i|f e input], q; cbn [at_part]; try destruct r; intros [= <-] I0; unfold holds; exists f, e, input; eexists _, _, _; (split; [reflexivity|]); split; intros ->; exact I0.
Qed.

(** A call does not need any other call, unless another one holds a lock of the one-time initialisation. *)
Theorem C62_first_calls_need_no_other p s i j : no_deadlock p -> happens p s -> nth_error (p_calls s) i = Some j ->
  (forall k j', k <> i -> nth_error (p_calls s) k = Some j' -> ~ holds j') ->
  exists s' j', own p i s s' /\ nth_error (p_calls s') i = Some j' /\ args j' = args j /\ ended j'.
Proof.
  intros D H Hi Hq. apply at_split in Hi as (js1 & js2 & E & <-). destruct (call_runs p js1 j js2 s D (happens_psane _ _ H) E) as (s' & j' & R & E' & X).
  - intros q. left. split; intros o Ho I0; apply in_map_iff in Ho as (j0 & Eo & Hj); apply In_nth_error in Hj as [k Hk]; pose proof (holds_inside _ _ _ Eo I0) as Hh.
    + apply (Hq k j0); [|rewrite E, nth_error_app1; [exact Hk | apply nth_error_Some; congruence] | exact Hh].
      assert (k < length js1) by (apply nth_error_Some; congruence). lia.
    + apply (Hq (S (length js1 + k)) j0); [lia | | exact Hh]. rewrite E, nth_error_app2 by lia. replace (S (length js1 + k) - length js1) with (S k) by lia. exact Hk.
  - exists s', j'. split; [exact R|]. split; [rewrite E'; apply at_mid | exact X].
Qed.

(** Once the tables have been made, a call that begins never waits, whatever the other calls are doing. *)
Theorem C62_later_calls_never_wait p s f e input : no_deadlock p -> happens p s -> done (p_lexer s) = true -> done (p_parser s) = true -> input <> [] ->
  exists s1 s2 j, proc_step p None s s1 /\ p_calls s1 = p_calls s ++ [Opening f e input NewLexer OLoad 0] /\
    own p (length (p_calls s)) s1 s2 /\ nth_error (p_calls s2) (length (p_calls s)) = Some j /\ args j = (f, e, input) /\ ended j.
Proof.
  intros D H D1 D2 Hi. pose proof (happens_psane _ _ H) as K. destruct s as [ls ps lc c js]. cbn [p_lexer p_parser p_calls] in *.
  pose proof (y_call p ls ps lc c js f e input Hi) as S0. pose proof (proc_keeps _ _ _ _ S0 K) as K1.
  destruct (call_runs p js (Opening f e input NewLexer OLoad 0) [] _ D K1 eq_refl) as (s' & j' & R & E' & X).
  - intros q. right. destruct q; cbn [p_lexer p_parser at_part]; (split; [assumption | discriminate]).
  - eexists _, s', j'. split; [exact S0|]. split; [reflexivity|]. split; [exact R|]. split; [rewrite E'; apply at_mid | exact X].
Qed.

Definition others_quiet (q : part) (i : nat) (s : proc) : Prop :=
  forall k j o, k <> i -> nth_error (p_calls s) k = Some j -> at_part q j = Some o -> ~ inside o.

(** The call inside gets out. *)
Lemma holder_runs p i q js1 f e input js2 : forall m s o i0, oleft (the_count q) o <= m -> inside o -> psane s -> p_calls s = js1 ++ Opening f e input q o i0 :: js2 ->
  exists s' i', clos_refl_trans_1n _ (own_or_holder p i) s s' /\ psane s' /\ p_calls s' = js1 ++ opened (rdepth (rule_of_func f) (tokens e input)) f e input q i' None :: js2.
Proof.
  induction m as [m IH] using (well_founded_induction lt_wf). intros s o i0 Hm I0 K E.
  pose proof (psane_part q s K) as O. rewrite E, pcs_split in O.
  assert (A : at_part q (Opening f e input q o i0) = Some o) by (destruct q; reflexivity). rewrite A in O.
  destruct (ogoes _ _ _ _ _ O) as [[-> _]|(st' & new & o' & S0)]; [destruct I0|].
  destruct (part_step p q s js1 f e input o i0 js2 st' new o' E S0) as (s1 & S1 & _ & _ & E3).
  pose proof (ostep_less _ _ _ _ _ _ _ _ S0 O) as Ls. pose proof (proc_keeps _ _ _ _ S1 K) as K1.
  assert (S2 : own_or_holder p i s s1).
  { exists (length js1). split; [exact S1|]. right. eexists. split; [rewrite E; apply at_mid|]. exact (holds_inside _ _ _ A I0). }
  destruct o' as [o'|].
  - assert (I1 : inside o') by (clear - S0 I0; inversion S0; subst; try exact Logic.I; destruct I0).
    destruct (IH (oleft (the_count q) o') ltac:(lia) s1 o' (S i0) (le_n _) I1 K1 E3) as (s' & i' & R & X). exists s', i'. split; [econstructor; [exact S2 | exact R] | exact X].
  - exists s1, (S i0). split; [econstructor; [exact S2 | constructor]|]. auto.
Qed.

Lemma nth_other (A : Type) (l1 : list A) x y l2 k : k <> length l1 -> nth_error (l1 ++ x :: l2) k = nth_error (l1 ++ y :: l2) k.
Proof.
  intros Ne. destruct (Nat.lt_ge_cases k (length l1)) as [L|L]; [rewrite !nth_error_app1 by exact L; reflexivity|].
  rewrite !nth_error_app2 by exact L. destruct (k - length l1) as [|d] eqn:D; [lia | reflexivity].
Qed.

Lemma released p i q s : psane s -> exists s', clos_refl_trans_1n _ (own_or_holder p i) s s' /\ psane s' /\
  nth_error (p_calls s') i = nth_error (p_calls s) i /\ others_quiet q i s' /\ (others_quiet (other_part q) i s -> others_quiet (other_part q) i s').
Proof.
  intros K. pose proof (psane_part q s K) as O.
  assert (Q : quiet (pcs q (p_calls s)) -> others_quiet q i s).
  { intros Q k j o _ Hk Ho. apply Q. rewrite <- Ho. apply in_map. exact (nth_error_In _ _ Hk). }
  unfold oinv in O. destruct (locked (the_static q s)).
  - destruct O as (l1 & o & l2 & E & Q1 & Q2 & Kn). pose proof (knows_inside _ _ _ Kn) as I0.
    apply map_eq_app in E as (js1 & js' & E & <- & E'). apply map_eq_cons in E' as (j & js2 & -> & Ho & <-).
    assert (Qo : forall s1 j1, p_calls s1 = js1 ++ j1 :: js2 -> forall k j' o', k <> length js1 -> nth_error (p_calls s1) k = Some j' -> at_part q j' = Some o' -> ~ inside o').
    { intros s1 j1 -> k j' o' Ne Hk Ho'. destruct (Nat.lt_ge_cases k (length js1)) as [L|L].
      - rewrite nth_error_app1 in Hk by exact L. apply Q1. rewrite <- Ho'. apply in_map. exact (nth_error_In _ _ Hk).
      - rewrite nth_error_app2 in Hk by exact L. destruct (k - length js1) as [|d] eqn:D; [lia|]. cbn [nth_error] in Hk. apply Q2. rewrite <- Ho'. apply in_map. exact (nth_error_In _ _ Hk). }
    destruct (Nat.eq_dec i (length js1)) as [->|Ne].
    + exists s. split; [constructor|]. split; [exact K|]. split; [reflexivity|]. split; [|auto]. exact (Qo s j E).
    + assert (Ej : exists f e input i0, j = Opening f e input q o i0) by (destruct j as [f e input [|] o' i0|z i0|f e input], q; cbn [at_part] in Ho; try discriminate; injection Ho as ->; eauto).
      destruct Ej as (f & e & input & i0 & ->).
      destruct (holder_runs p i q js1 f e input js2 _ s o i0 (le_n _) I0 K E) as (s' & i' & R & K' & E2).
      exists s'. split; [exact R|]. split; [exact K'|]. split; [rewrite E2, E; apply nth_other; exact Ne|]. split.
      * intros k j' o' _ Hk Ho'. destruct (Nat.eq_dec k (length js1)) as [->|Nk]; [|exact (Qo s' _ E2 k j' o' Nk Hk Ho')].
        rewrite E2, at_mid in Hk. injection Hk as <-. pose proof (opened_at q (rdepth (rule_of_func f) (tokens e input)) f e input i' None) as X0. refine (False_ind _ _). refine (eq_ind None (fun x => match x with None => True | Some _ => False end) Logic.I _ (eq_trans (eq_sym X0) Ho')).
      * intros Hq k j' o' Nk Hk Ho'. destruct (Nat.eq_dec k (length js1)) as [->|Nk'].
        -- rewrite E2, at_mid in Hk. injection Hk as <-. refine (opened_other q (other_part q) (rdepth (rule_of_func f) (tokens e input)) f e input i' None _ o' Ho'). destruct q; discriminate.
        -- apply (Hq k j' o' Nk); [|exact Ho']. rewrite E, <- Hk, E2. apply nth_other. exact Nk'.
  - exists s. split; [constructor|]. split; [exact K|]. split; [reflexivity|]. split; [apply Q; apply O | auto].
Qed.

(** In every case it is enough that the calls that hold a lock go on until they release it. *)
Theorem C62_first_calls_end p s i j : no_deadlock p -> happens p s -> nth_error (p_calls s) i = Some j ->
  exists s' j', clos_refl_trans_1n _ (own_or_holder p i) s s' /\ nth_error (p_calls s') i = Some j' /\ args j' = args j /\ ended j'.
Proof.
  intros D H Hi. pose proof (happens_psane _ _ H) as K. destruct (released p i NewLexer s K) as (s1 & R1 & K1 & E1 & Q1 & _).
  destruct (released p i NewParser s1 K1) as (s2 & R2 & K2 & E2 & Q2 & Q3). specialize (Q3 Q1). rewrite E1, Hi in E2.
  apply at_split in E2 as (js1 & js2 & E & <-). destruct (call_runs p js1 j js2 s2 D K2 E) as (s' & j' & R & E' & X).
  - intros q. left. assert (Q : others_quiet q (length js1) s2) by (destruct q; assumption).
    split; intros o Ho; apply in_map_iff in Ho as (j0 & Eo & Hj); apply In_nth_error in Hj as [k Hk].
    + apply (Q k j0); [|rewrite E, nth_error_app1; [exact Hk | apply nth_error_Some; congruence] | exact Eo].
      assert (k < length js1) by (apply nth_error_Some; congruence). lia.
    + apply (Q (S (length js1 + k)) j0); [lia | | exact Eo]. rewrite E, nth_error_app2 by lia. replace (S (length js1 + k) - length js1) with (S k) by lia. exact Hk.
  - exists s', j'. split; [|split; [rewrite E'; apply at_mid | exact X]].
    assert (R' : clos_refl_trans_1n _ (own_or_holder p (length js1)) s2 s').
    { clear - R. induction R as [|a b c0 H1 _ IH]; [constructor|]. econstructor; [|exact IH]. exists (length js1). auto. }
    apply clos_rt_rt1n. eapply rt_trans; [apply clos_rt1n_rt; exact R1|]. eapply rt_trans; apply clos_rt1n_rt; [exact R2 | exact R'].
Qed.

(** ** The hypotheses can be met *)

(** Two first calls: the first one is making the lexer's table, the second one waits for it. *)
Example C62_first_calls_met e : let s := mkProc (mkStatic false true true [false] 1) blank empty_lcache empty_cache
    [Opening ParseAddressList_ e (bs "a@b") NewLexer (ORun 2) 5; Opening ParseDateTime_ e (bs "1Jan20 10:10") NewLexer OLock 1] in
  happens on_demand s /\ (forall x, ~ proc_step on_demand (Some 1) s x) /\
  exists s' j, clos_refl_trans_1n _ (own_or_holder on_demand 1) s s' /\ nth_error (p_calls s') 1 = Some j /\ ended j /\ done (p_lexer s') = true.
Proof.
  cbv zeta. set (a := bs "a@b"). set (d := bs "1Jan20 10:10").
  assert (H : happens on_demand (mkProc (mkStatic false true true [false] 1) blank empty_lcache empty_cache
    [Opening ParseAddressList_ e a NewLexer (ORun 2) 5; Opening ParseDateTime_ e d NewLexer OLock 1])).
  { unfold happens.
    eapply Relation_Operators.rt1n_trans; [exists None; apply (y_call on_demand blank blank empty_lcache empty_cache [] ParseAddressList_ e a); discriminate|]. cbn [app].
    eapply Relation_Operators.rt1n_trans; [exists None; apply (y_call on_demand blank blank empty_lcache empty_cache _ ParseDateTime_ e d); discriminate|]. cbn [app].
    eapply Relation_Operators.rt1n_trans; [exists (Some 1); apply (y_new_lexer on_demand blank blank empty_lcache empty_cache [_] ParseDateTime_ e d OLoad 0 [] _ _ _ 0 (o_slow _ blank eq_refl))|]. cbn [app opened].
    eapply Relation_Operators.rt1n_trans; [exists (Some 0); apply (y_new_lexer on_demand _ blank empty_lcache empty_cache [] ParseAddressList_ e a OLoad 0 _ _ _ _ 0 (o_slow _ blank eq_refl))|]. cbn [app opened].
    eapply Relation_Operators.rt1n_trans; [exists (Some 0); apply (y_new_lexer on_demand _ blank empty_lcache empty_cache [] ParseAddressList_ e a OLock 1 _ _ _ _ 0 (o_lock _ blank eq_refl))|]. cbn [app opened].
    eapply Relation_Operators.rt1n_trans; [exists (Some 0); apply (y_new_lexer on_demand _ blank empty_lcache empty_cache [] ParseAddressList_ e a OCheck 2 _ _ _ _ 0 (o_first _ (mkStatic false true false [] 0) eq_refl))|]. cbn [app opened].
    eapply Relation_Operators.rt1n_trans; [exists (Some 0); apply (y_new_lexer on_demand _ blank empty_lcache empty_cache [] ParseAddressList_ e a (ORun 0) 3 _ _ _ _ 0 (o_net _ (mkStatic false true false [] 1)))|]. cbn [app opened].
    eapply Relation_Operators.rt1n_trans; [exists (Some 0); apply (y_new_lexer on_demand _ blank empty_lcache empty_cache [] ParseAddressList_ e a (ORun 1) 4 _ _ _ _ 0 (o_make _ (mkStatic false true true [] 1)))|]. cbn [app opened].
    apply Relation_Operators.rt1n_refl. }
  split; [exact H|]. split.
  - intros x S0. remember (Some 1) as n1 eqn:En in S0. remember (mkProc _ _ _ _ _) as s0 eqn:Es in S0.
    destruct S0 as [ls ps lc c js f0 e0 input Hi | ls ps lc c js1 f0 e0 input o i js2 ls' new o' n S1 | ls ps lc c js1 f0 e0 input o i js2 ps' new o' n Hn S1
      | ls ps lc c js1 f0 e0 input t r h k i js2 lc' t' U M S1 | ls ps lc c js1 f0 e0 input t r h k i js2 c' r' U M S1 | ls ps lc c js1 z i js2 U];
      [discriminate | | | | |]; (destruct js1 as [|x1 [|x2 js1]]; cbn [length] in En; try discriminate; injection Es as -> _ _ _ _ Ej; try discriminate).
    subst o. inversion S1. discriminate.
  - destruct (C62_first_calls_end on_demand _ 1 _ on_demand_runs H eq_refl) as (s' & j & R & E & _ & X). exists s', j. split; [exact R|]. split; [exact E|]. split; [exact X|].
    assert (H' : happens on_demand s').
    { unfold happens in *. apply clos_rt_rt1n. eapply rt_trans; [apply clos_rt1n_rt; exact H|]. clear - R. induction R as [|x y z (k & H1 & _) _ IH]; [apply rt_refl|]. eapply rt_trans; [apply rt_step; exists (Some k); exact H1 | exact IH]. }
    destruct X as (z & i & o & -> & _). apply nth_error_In in E. apply (happens_csane _ _ _ H' E).
Qed.

(** A state in which the tables have been made and a call has ended. *)
Example C62_later_calls_met (e : env) : exists s z i, happens on_demand s /\ done (p_lexer s) = true /\ done (p_parser s) = true /\ In (Open z i) (p_calls s) /\ ended (Open z i).
Proof.
  destruct (C62_first_calls_met e) as (H & _ & s & j & R & E & X & _).
  assert (H' : happens on_demand s).
  { unfold happens in *. apply clos_rt_rt1n. eapply rt_trans; [apply clos_rt1n_rt; exact H|]. clear - R. induction R as [|x y z (k & H1 & _) _ IH]; [apply rt_refl|]. eapply rt_trans; [apply rt_step; exists (Some k); exact H1 | exact IH]. }
  pose proof X as (z & i & o & -> & _). apply nth_error_In in E. destruct (happens_csane _ _ _ H' E) as (D1 & D2 & _). exists s, z, i. auto.
Qed.
