(** A walk of the tree by the Go listener of GoCode.v does what [walk] of Walker.v says. *)
From Coq Require Import String Ascii List NArith ZArith Bool Arith Lia Permutation.
From Verif Require Import Lexer Grammar Utf8 Strs Mime GoTime Parser Walker WalkerFacts GoSyntax GoCode GoRun GoFacts GoSim GoGive GoNames GoEnter.
Import ListNotations.
Local Open Scope string_scope.
Local Open Scope list_scope.

Lemma rule_eq_dec (a b : rule) : {a = b} + {a <> b}.
Proof. decide equality. Defined.

(** ** The states that belong together *)
(** The stack: the objects [lns] are the nodes, the objects in [lss] their addresses. *)
Inductive stack (s : gst) : list nat -> list (list nat) -> list node -> Prop :=
| Stack_nil : stack s [] [] []
| Stack_cons l ls n lns lss ns : load s l = Some (image n ls) -> are s ls (adr n) -> stack s lns lss ns -> stack s (l :: lns) (ls :: lss) (n :: ns).
Definition errs (v : val) (x : option error) : Prop := match x with None => v = VNil | Some ESyntax => exists t, v = VErr (ErrText t) | Some y => v = errv y end.
Definition ress (s : gst) (v : val) (ls : list nat) (x : wres) : Prop :=
  match x with ResNil => v = VNil /\ ls = [] | ResList a => v = av a ls /\ are s ls (elems a) | ResTime t => v = VTime t /\ ls = [] end.

(** [h] is the heap before, [lw] the walker, [lsr] the addresses of the result. *)
Record paired (h : list obj) (lw : nat) (st : wstate) (s : gst) (lns : list nat) (lss : list (list nat)) (lsr : list nat) : Prop := mkPaired {
  p_base : forall x o, nth_error h x = Some o -> load s x = Some o;
  p_size : length h <= length (heap s);
  p_lw : length h <= lw;
  p_w : exists o rv ev, load s lw = Some (wobj o rv ev) /\ members o = map VPtr (rev lns) /\ ress s rv lsr (res st) /\ errs ev (err st);
  p_stack : stack s lns lss (nodes st);
  p_lns : NoDup lns /\ Forall (fun x => length h <= x) lns;
  p_adr : NoDup (concat lss ++ lsr) /\ Forall (fun x => length h <= x) (concat lss ++ lsr) }.

Lemma image_not_walker n ls o r v : image n ls <> wobj o r v.
Proof. intros H. apply (f_equal o_type) in H. rewrite image_type in H. destruct n; discriminate H. Qed.
Lemma addr_not_walker a o r v : addr_obj a <> wobj o r v.
Proof. discriminate. Qed.
Lemma addr_not_image a n ls : addr_obj a <> image n ls.
Proof. intros H. apply (f_equal o_type) in H. rewrite image_type in H. destruct n; discriminate H. Qed.

Lemma are_frame s s' lx ox ls l : load s lx = Some ox -> (forall a, addr_obj a <> ox) ->
  (forall x o, x <> lx -> load s x = Some o -> load s' x = Some o) -> are s ls l -> are s' ls l.
Proof.
  intros X N F H. induction H as [|x a ls l H1 H IH]; [constructor |]. constructor; [| exact IH].
  apply F; [| exact H1]. intros E. subst x. rewrite X in H1. injection H1 as H1. now apply (N a).
Qed.
Lemma stack_frame s s' lx ox lns lss ns : load s lx = Some ox -> (forall a, addr_obj a <> ox) ->
  (forall x o, x <> lx -> load s x = Some o -> load s' x = Some o) -> ~ In lx lns -> stack s lns lss ns -> stack s' lns lss ns.
Proof.
  intros X N F I H. induction H as [|l ls n lns lss ns H1 H2 H3 IH]; [constructor |]. constructor.
  - apply F; [| exact H1]. intros E. apply I. now left.
  - exact (are_frame _ _ _ _ _ _ X N F H2).
  - apply IH. intros K. apply I. now right.
Qed.
Lemma stack_not_walker s lw o r v lns lss ns : load s lw = Some (wobj o r v) -> stack s lns lss ns -> ~ In lw lns.
Proof.
  intros L H. induction H as [|l ls n lns lss ns H1 H2 H3 IH]; [intros [] |]. intros [E|K]; [| now apply IH].
  subst l. rewrite L in H1. injection H1 as H1. symmetry in H1. now apply image_not_walker in H1.
Qed.
Lemma ress_frame s s' lx ox v ls x : load s lx = Some ox -> (forall a, addr_obj a <> ox) ->
  (forall x o, x <> lx -> load s x = Some o -> load s' x = Some o) -> ress s v ls x -> ress s' v ls x.
Proof. intros X N F. destruct x; cbn; try exact (fun h => h). intros [A B]. split; [exact A | exact (are_frame _ _ _ _ _ _ X N F B)]. Qed.
Lemma stack_lt s lns lss ns : stack s lns lss ns -> Forall (fun x => x < length (heap s)) lns /\ Forall (fun x => x < length (heap s)) (concat lss).
Proof.
  induction 1 as [|l ls n lns lss ns H1 H2 H3 IH]; [split; constructor |]. destruct IH as [A B]. split.
  - constructor; [now apply load_lt in H1 | exact A].
  - cbn [concat]. apply Forall_app. split; [| exact B]. clear - H2. induction H2 as [|x a ls l H1 H IH]; constructor; [now apply load_lt in H1 | exact IH].
Qed.
Lemma ress_lt s v ls x : ress s v ls x -> Forall (fun x => x < length (heap s)) ls.
Proof.
  destruct x; cbn; [intros [_ ->]; constructor | | intros [_ ->]; constructor]. intros [_ H].
  induction H as [|y a ls l H1 H IH]; constructor; [now apply load_lt in H1 | exact IH].
Qed.

Lemma nodup_right {A} (a b : list A) : NoDup (a ++ b) -> NoDup b.
Proof. induction a as [|x a IH]; [exact (fun h => h) |]. cbn. intros H. inversion H. auto. Qed.
Lemma nodup_left {A} (a b : list A) : NoDup (a ++ b) -> NoDup a.
Proof.
  induction a as [|x a IH]; [constructor |]. cbn. intros H. inversion H as [|? ? H1 H2]. subst. constructor; [| auto].
  intros K. apply H1. apply in_or_app. now left.
Qed.
Lemma nth_lt {A} (l : list A) n x : nth_error l n = Some x -> n < length l.
Proof. intros H. apply nth_error_Some. now rewrite H. Qed.
Lemma enter_adr e r ch nd er : enter_node e r ch = Some (Some (nd, er)) -> adr nd = [].
Proof.
  destruct r; cbn; intros H; try discriminate H; try (injection H as <- _; reflexivity).
  destruct (offset_value (get_text ch)) as [[[? ?] ?]|]; [injection H as <- _; reflexivity | discriminate H].
Qed.
Lemma forget h lw st s lns lss lsr o rv ev s' : paired h lw st s lns lss lsr -> load s lw = Some (wobj o rv ev) ->
  (forall x y, x <> lw -> load s x = Some y -> load s' x = Some y) -> length (heap s) <= length (heap s') ->
  (forall x y, nth_error h x = Some y -> load s' x = Some y) /\ length h <= length (heap s') /\ stack s' lns lss (nodes st) /\
  forall v ls x, ress s v ls x -> ress s' v ls x.
Proof.
  intros PP L K Z. assert (NA : forall a, addr_obj a <> wobj o rv ev) by (intros; apply addr_not_walker). destruct PP as [P1 P2 P3 _ P5 P6 P7].
  split; [| split; [lia | split]].
  - intros x y X. apply K; [| now apply P1]. intros E2. subst x. apply nth_lt in X. lia.
  - exact (stack_frame _ _ lw _ _ _ _ L NA K (stack_not_walker _ _ _ _ _ _ _ _ L P5) P5).
  - intros v ls x R. exact (ress_frame _ _ lw _ _ _ _ L NA K R).
Qed.
Lemma members_rev o ln lns : members o = map VPtr (rev (ln :: lns)) -> o = Some (map VPtr (rev lns) ++ [VPtr ln]).
Proof. cbn [rev]. rewrite map_app. cbn [map]. intros M. destruct o as [l|]; [cbn in M; now rewrite M | cbn in M; destruct (map VPtr (rev lns)); discriminate M]. Qed.

Ltac fuel30 n := change (30 + n) with (S (S (S (S (S (S (S (S (S (S (S (S (S (S (S (S (S (S (S (S (S (S (S (S (S (S (S (S (S (S n)))))))))))))))))))))))))))))).

Section GoWalk.
Context (e : wenv) (wd : world).
Local Notation invoke := (invoke package e wd).
Local Notation execs := (execs package e wd).
Implicit Types (n : nat) (s : gst).

Lemma enter_paired n h lw st s lns lss lsr r ch st' : paired h lw st s lns lss lsr -> do_enter e r ch st = Some st' ->
  exists s' lns' lss', invoke (40 + n) (VCtx r ch) "EnterRule" [VPtr lw] s = Ok (VTuple []) s' /\ paired h lw st' s' lns' lss' lsr /\ printed s' = printed s.
Proof.
  intros PP H. destruct (p_w _ _ _ _ _ _ _ PP) as (o & rv & ev & L & M & R & E).
  pose proof (call_rule e wd (32 + n) s lw o rv ev r ch "Enter" L (or_introl eq_refl)) as C.
  change (invoke (40 + n) (VCtx r ch) "EnterRule" [VPtr lw] s) with (invoke (S (S (S (S (S (S (S (S (32 + n))))))))) (VCtx r ch) ("Enter" ++ "Rule")%string [VPtr lw] s).
  rewrite C. unfold do_enter in H.
  destruct (enter_node e r ch) as [[[nd er]|]|] eqn:EN; [| | discriminate H].
  - destruct (enter_sim e wd (4 + n) s lw o rv ev r ch nd er L EN) as (s' & ln & I & W & NW & FR & K & PR).
    change (S (S (32 + n))) with (30 + (4 + n)). rewrite I. rewrite bind_ok. exists s', (ln :: lns), ([] :: lss). split; [reflexivity |]. split; [| exact PR].
    injection H as <-. destruct PP as [P1 P2 P3 _ P5 P6 P7].
    assert (NA : forall a, addr_obj a <> wobj o rv ev) by (intros; apply addr_not_walker).
    assert (Hln : ~ In ln lns). { intros K2. destruct (stack_lt _ _ _ _ P5) as [Q _]. rewrite Forall_forall in Q. apply Q in K2. lia. }
    constructor; cbn [nodes res err].
    + intros x y X. apply K; [| now apply P1]. intros E2. subst x. apply nth_lt in X. lia.
    + apply load_lt in NW. lia.
    + exact P3.
    + exists (Some (members o ++ [VPtr ln])), rv, (match er with Some x => errv x | None => ev end). split; [exact W |]. split; [cbn; rewrite M, map_app; reflexivity |].
      split; [exact (ress_frame _ _ lw _ _ _ _ L NA K R) |].
      destruct er as [er|]; [| exact E]. destruct er; try reflexivity. eexists; reflexivity.
    + constructor; [exact NW | rewrite (enter_adr _ _ _ _ _ EN); constructor |].
      exact (stack_frame _ _ lw _ _ _ _ L NA K (stack_not_walker _ _ _ _ _ _ _ _ L P5) P5).
    + destruct P6 as [A B]. split; [now constructor | constructor; [lia | exact B]].
    + exact P7.
  - injection H as <-. assert (HN : handled r = false) by (destruct r; try reflexivity; discriminate EN || (cbn in EN; destruct (offset_value (get_text ch)) as [[[? ?] ?]|]; discriminate EN)).
    rewrite (call_other e wd (32 + n) s lw o rv ev r ch _ L (enter_other r HN)), bind_ok. exists s, lns, lss. split; [reflexivity | split; [exact PP | reflexivity]].
Qed.

Lemma exit_paired n h lw st s lns lss lsr r ch st' : paired h lw st s lns lss lsr -> do_exit r st = Some st' ->
  exists s' lns' lss' lsr', invoke (40 + n) (VCtx r ch) "ExitRule" [VPtr lw] s = Ok (VTuple []) s' /\ paired h lw st' s' lns' lss' lsr' /\ printed s' = printed s.
Proof.
  intros PP H. destruct (p_w _ _ _ _ _ _ _ PP) as (o & rv & ev & L & M & R & E).
  pose proof (call_rule e wd (32 + n) s lw o rv ev r ch "Exit" L (or_intror eq_refl)) as C.
  change (invoke (40 + n) (VCtx r ch) "ExitRule" [VPtr lw] s) with (invoke (S (S (S (S (S (S (S (S (32 + n))))))))) (VCtx r ch) ("Exit" ++ "Rule")%string [VPtr lw] s).
  rewrite C. clear C. destruct (handled r) eqn:HN.
  2: { unfold do_exit in H. rewrite HN in H. injection H as <-.
    rewrite (call_other e wd (32 + n) s lw o rv ev r ch _ L (exit_other r HN)), bind_ok. exists s, lns, lss, lsr. split; [reflexivity | split; [exact PP | reflexivity]]. }
  change (S (S (32 + n))) with (S (30 + (3 + n))).
  destruct st as [nds rs er]. unfold do_exit in H. rewrite HN in H. cbn [nodes res err] in *.
  pose proof (p_stack _ _ _ _ _ _ _ PP) as SK. cbn [nodes] in SK. inversion SK as [|ln ls nd lns0 lss0 ns S1 S2 S3]; subst; [discriminate H |]. clear SK. rename lns0 into lns, lss0 into lss.
  destruct (node_of_rule r nd) eqn:NR; [| discriminate H].
  apply members_rev in M. subst o.
  pose proof (fun m => call_exit e wd m s lw _ _ rv ev L) as CX. set (s1 := store s lw (wobj (Some (map VPtr (rev lns))) rv ev)) in CX.
  assert (L1 : load s1 lw = Some (wobj (Some (map VPtr (rev lns))) rv ev)) by (eapply load_store_same; exact L).
  assert (K1 : forall x y, x <> lw -> load s x = Some y -> load s1 x = Some y) by (intros x y X Y; unfold s1; rewrite load_store_other by congruence; exact Y).
  destruct (forget _ _ _ _ _ _ _ _ _ _ s1 PP L K1 ltac:(unfold s1; rewrite heap_store; apply Nat.le_refl)) as (F1 & F2 & F3 & F4).
  inversion F3 as [|? ? ? ? ? ? T1 T2 T3]; subst. clear F3.
  assert (Z1 : length (heap s1) = length (heap s)) by (unfold s1; apply heap_store).
  assert (PR1 : printed s1 = printed s) by reflexivity. clearbody s1.
  assert (NW : ln <> lw). { intros X. subst ln. rewrite L1 in T1. injection T1 as T1. symmetry in T1. now apply image_not_walker in T1. }
  destruct (p_adr _ _ _ _ _ _ _ PP) as [A1 A2]. cbn [concat] in A1, A2. rewrite <- app_assoc in A1, A2.
  destruct (p_lns _ _ _ _ _ _ _ PP) as [B1 B2]. inversion B1 as [|? ? B3 B4]; subst. inversion B2 as [|? ? B5 B6]; subst.
  pose proof (p_lw _ _ _ _ _ _ _ PP) as PL.
  destruct (rule_eq_dec r R_addressList) as [->|NAL]; [| destruct (rule_eq_dec r R_dateTime) as [->|NDT]].
  - (* ExitAddressList *)
    destruct nd; try discriminate NR. injection H as <-.
    assert (CW : exists s', invoke (S (30 + (3 + n))) (VPtr lw) "ExitAddressList" [VCtx R_addressList ch] s = Ok (VTuple []) s' /\
       s' = store s1 lw (wobj (Some (map VPtr (rev lns))) (av addresses ls) ev)).
    { cbn [image] in T1. eexists. split; [| reflexivity]. erewrite call_walker; [| exact L | vm_compute; reflexivity]. look. unfold wobj in *. fuel30 (3 + n).
      go. rewrite CX. go. cbn [is_type]. rewrite T1. look. go. reflexivity. }
    destruct CW as (s' & CW & ES). change ("Exit" ++ rname R_addressList)%string with "ExitAddressList". rewrite CW, bind_ok. exists s', lns, lss, ls. split; [reflexivity |].
    assert (K2 : forall x y, x <> lw -> load s1 x = Some y -> load s' x = Some y) by (intros x y X Y; subst s'; rewrite load_store_other by congruence; exact Y).
    split; [| subst s'; exact PR1].
    constructor; cbn [nodes res err].
    + intros x y X. apply K2; [| now apply F1]. intros E2. subst x. apply nth_lt in X. lia.
    + subst s'. rewrite heap_store. exact F2.
    + exact PL.
    + exists (Some (map VPtr (rev lns))), (av addresses ls), ev. split; [subst s'; eapply load_store_same; exact L1 |]. split; [reflexivity |].
      split; [split; [reflexivity |]; exact (are_frame _ _ lw _ _ _ L1 ltac:(intros; apply addr_not_walker) K2 T2) | exact E].
    + exact (stack_frame _ _ lw _ _ _ _ L1 ltac:(intros; apply addr_not_walker) K2 (stack_not_walker _ _ _ _ _ _ _ _ L1 T3) T3).
    + split; assumption.
    + rewrite app_assoc in A1, A2. apply nodup_left in A1. apply Forall_app in A2. destruct A2 as [A2 _].
      split; [apply (Permutation_NoDup (Permutation_app_comm ls (concat lss)) A1) |]. apply Forall_app in A2. apply Forall_app. tauto.
  - (* ExitDateTime *)
    destruct nd; try discriminate NR. injection H as <-.
    assert (CW : exists s', invoke (S (30 + (3 + n))) (VPtr lw) "ExitDateTime" [VCtx R_dateTime ch] s = Ok (VTuple []) s' /\
       s' = store s1 lw (wobj (Some (map VPtr (rev lns))) (VTime (go_date year month day hour min sec loc)) ev)).
    { cbn [image] in T1. eexists. split; [| reflexivity]. erewrite call_walker; [| exact L | vm_compute; reflexivity]. look. unfold wobj in *. fuel30 (3 + n).
      go. rewrite CX. go. cbn [is_type]. rewrite T1. look. go. unfold lib. look. go. reflexivity. }
    destruct CW as (s' & CW & ES). change ("Exit" ++ rname R_dateTime)%string with "ExitDateTime". rewrite CW, bind_ok. exists s', lns, lss, []. split; [reflexivity |].
    assert (K2 : forall x y, x <> lw -> load s1 x = Some y -> load s' x = Some y) by (intros x y X Y; subst s'; rewrite load_store_other by congruence; exact Y).
    split; [| subst s'; exact PR1].
    constructor; cbn [nodes res err].
    + intros x y X. apply K2; [| now apply F1]. intros E2. subst x. apply nth_lt in X. lia.
    + subst s'. rewrite heap_store. exact F2.
    + exact PL.
    + exists (Some (map VPtr (rev lns))), (VTime (go_date year month day hour min sec loc)), ev. split; [subst s'; eapply load_store_same; exact L1 |]. split; [reflexivity |].
      split; [split; reflexivity | exact E].
    + exact (stack_frame _ _ lw _ _ _ _ L1 ltac:(intros; apply addr_not_walker) K2 (stack_not_walker _ _ _ _ _ _ _ _ L1 T3) T3).
    + split; assumption.
    + rewrite app_nil_r. apply nodup_right in A1. apply nodup_left in A1. apply Forall_app in A2. destruct A2 as [_ A2]. apply Forall_app in A2. tauto.
  - (* the other Exit... methods *)
    destruct ns as [|p ns].
    { exfalso. destruct r; try discriminate HN; try (now destruct NAL); try (now destruct NDT); destruct nd; try discriminate NR; discriminate H. }
    assert (st' = mkW (give p nd :: ns) rs er).
    { destruct r; try discriminate HN; try (now destruct NAL); try (now destruct NDT); destruct nd; try discriminate NR; now injection H as <-. }
    subst st'. clear H. destruct (node_names r nd NR) as [N1 N2].
    inversion T3 as [|lp lsp p0 lns1 lss1 ns1 U1 U2 U3]; subst. rename lns1 into lns, lss1 into lss.
    inversion B4 as [|? ? B7 B8]; subst. inversion B6 as [|? ? B9 B10]; subst.
    assert (GO : exists s' ls', invoke (S (30 + (3 + n))) (VPtr lw) ("Exit" ++ rname r)%string [VCtx r ch] s = Ok (VTuple []) s' /\
      load s' lp = Some (image (give p nd) ls') /\ (forall x o, x <> lp -> load s1 x = Some o -> load s' x = Some o) /\
      length (heap s1) <= length (heap s') /\ printed s' = printed s1 /\
      (exists fr, ls' = lsp \/ ls' = lsp ++ ls \/ (ls' = lsp ++ [fr] /\ length (heap s1) <= fr)) /\ are s' ls' (adr (give p nd))).
    { erewrite call_walker; [| exact L | exact (exit_inner r HN NAL NDT)]. unfold exit_fn. look. unfold wobj in *. fuel30 (3 + n).
      go. rewrite CX. go. cbn [is_type]. rewrite T1, image_type, N1, String.eqb_refl. look. go.
      rewrite (call_parent e wd _ s1 lw (map VPtr (rev lns)) (VPtr lp) rv ev) by (cbn [rev] in L1; rewrite map_app in L1; exact L1). go.
      rewrite ?U1. look. rewrite image_type. rewrite <- N1, <- N2.
      change (implements package (tname p) [(with_name nd, [TPtr (TName (tname nd))])]) with (gives p nd).
      destruct (gives p nd) eqn:G.
      - go. destruct (give_sim e wd (12 + n) s1 p lp lsp nd ln ls G) as (s' & ls' & I & Q); [intros X; subst; now apply B3; left | exact U1 | exact T1 | exact U2 | exact T2 |].
        exists s', ls'. split; [| exact Q]. match goal with |- context [GoRun.invoke _ _ _ ?k (VPtr lp)] => change k with (15 + (12 + n)) end. rewrite I. go. reflexivity.
      - go. exists s1, lsp. split; [reflexivity |]. rewrite (not_given _ _ G). split; [exact U1 |]. split; [tauto |]. split; [lia |]. split; [reflexivity |]. split; [exists 0; now left | exact U2]. }
    destruct GO as (s' & ls' & CW & G1 & G2 & G3 & G4 & (fr & G5) & G6). rewrite CW, bind_ok. exists s', (lp :: lns), (ls' :: lss), lsr. split; [reflexivity |]. split; [| congruence].
    assert (NA : forall a, addr_obj a <> image p lsp) by (intros; apply addr_not_image).
    constructor; cbn [nodes res err].
    + intros x y X. apply G2; [| now apply F1]. intros E2. subst x. apply nth_lt in X. lia.
    + lia.
    + exact PL.
    + exists (Some (map VPtr (rev (lp :: lns)))), rv, ev. split; [apply G2; [| exact L1] |].
      { intros X. subst lp. rewrite L1 in U1. injection U1 as U1. symmetry in U1. now apply image_not_walker in U1. }
      split; [reflexivity |]. split; [| exact E]. apply (ress_frame _ _ lp _ _ _ _ U1 NA G2). now apply F4.
    + constructor; [exact G1 | exact G6 | exact (stack_frame _ _ lp _ _ _ _ U1 NA G2 B7 U3)].
    + split; [now constructor | now constructor].
    + cbn [concat] in *. rewrite <- app_assoc in *. assert (A3 : NoDup (lsp ++ concat lss ++ lsr) /\ Forall (fun x => length h <= x) (lsp ++ concat lss ++ lsr)).
      { split; [now apply nodup_right in A1 | apply Forall_app in A2; tauto]. }
      destruct A3 as [A3 A4]. destruct G5 as [-> | [-> | [-> G5]]].
      * split; assumption.
      * rewrite <- app_assoc. split; [eapply Permutation_NoDup; [| exact A1] | eapply Permutation_Forall; [| exact A2]]; rewrite !app_assoc; apply Permutation_app_tail; apply Permutation_app_tail; apply Permutation_app_comm.
      * rewrite <- app_assoc. split.
        -- apply (Permutation_NoDup (l := fr :: lsp ++ concat lss ++ lsr)); [apply Permutation_middle |]. constructor; [| exact A3].
           intros IN. apply in_app_or in IN. destruct (stack_lt _ _ _ _ T3) as [_ Q]. cbn [concat] in Q. pose proof (ress_lt _ _ _ _ (F4 _ _ _ R)) as Q2.
           rewrite Forall_forall in Q, Q2. destruct IN as [IN|IN]; [assert (fr < length (heap s1)) by (apply Q; apply in_or_app; now left); lia |].
           apply in_app_or in IN. destruct IN as [IN|IN]; [assert (fr < length (heap s1)) by (apply Q; apply in_or_app; now right); lia | assert (fr < length (heap s1)) by (now apply Q2); lia].
        -- apply Forall_app in A4. apply Forall_app. split; [tauto | constructor; [lia | tauto]].
Qed.

(** ** A walk *)
Lemma call_empty n s lw o rv ev m args t : load s lw = Some (wobj o rv ev) -> find_method package "walker" m = Some (mkFn "s" t []) ->
  invoke (S (S n)) (VPtr lw) m args s = Ok (VTuple []) s.
Proof. intros L F. erewrite call_walker; [| exact L | exact F]. reflexivity. Qed.

Definition walk_trees (call : val -> string -> list val -> gst -> out val) (w : val) := fix walks (f : list tree) (s : gst) : out unit :=
  match f with [] => Ok Datatypes.tt s | t :: f' => bind (walk_tree call w t s) (fun _ s => walks f' s) end.
Lemma walk_trees_cons call w t f s : walk_trees call w (t :: f) s = bind (walk_tree call w t s) (fun _ s => walk_trees call w f s).
Proof. reflexivity. Qed.
Lemma walk_tree_node call w r ch s : walk_tree call w (Node r ch) s =
  bind (call w "EnterEveryRule" [VCtx r ch] s) (fun _ s => bind (call (VCtx r ch) "EnterRule" [w] s) (fun _ s =>
    bind (walk_trees call w ch s) (fun _ s => bind (call (VCtx r ch) "ExitRule" [w] s) (fun _ s =>
      bind (call w "ExitEveryRule" [VCtx r ch] s) (fun _ s => Ok Datatypes.tt s))))).
Proof. reflexivity. Qed.

Lemma walk_paired n h lw t : forall st s lns lss lsr st', paired h lw st s lns lss lsr -> walk e t st = Some st' ->
  exists s' lns' lss' lsr', walk_tree (invoke (40 + n)) (VPtr lw) t s = Ok Datatypes.tt s' /\ paired h lw st' s' lns' lss' lsr' /\ printed s' = printed s.
Proof.
  induction t as [x|r ch IH] using tree_ind'; intros st s lns lss lsr st' PP H.
  - injection H as <-. destruct (p_w _ _ _ _ _ _ _ PP) as (o & rv & ev & L & _). cbn [walk_tree]. change (40 + n) with (S (S (38 + n))).
    erewrite call_empty; [| exact L | vm_compute; reflexivity]. rewrite bind_ok. exists s, lns, lss, lsr. split; [reflexivity | split; [exact PP | reflexivity]].
  - rewrite walk_node in H. destruct (do_enter e r ch st) as [st1|] eqn:E1; [| discriminate H]. destruct (walks e ch st1) as [st2|] eqn:E2; [| discriminate H].
    rewrite walk_tree_node. destruct (p_w _ _ _ _ _ _ _ PP) as (o & rv & ev & L & _).
    change (invoke (40 + n) (VPtr lw) "EnterEveryRule" [VCtx r ch] s) with (invoke (S (S (38 + n))) (VPtr lw) "EnterEveryRule" [VCtx r ch] s).
    erewrite call_empty; [| exact L | vm_compute; reflexivity]. rewrite bind_ok.
    destruct (enter_paired n h lw st s lns lss lsr r ch st1 PP E1) as (s1 & lns1 & lss1 & I1 & P1 & R1). rewrite I1, bind_ok.
    assert (W : exists s2 lns2 lss2 lsr2, walk_trees (invoke (40 + n)) (VPtr lw) ch s1 = Ok Datatypes.tt s2 /\ paired h lw st2 s2 lns2 lss2 lsr2 /\ printed s2 = printed s1).
    { clear - IH E2 P1. revert st1 s1 lns1 lss1 lsr P1 E2. induction IH as [|t ch Ht Hch IH2]; intros st1 s1 lns1 lss1 lsr P1 E2.
      - injection E2 as <-. exists s1, lns1, lss1, lsr. split; [reflexivity | split; [exact P1 | reflexivity]].
      - cbn [walks] in E2. destruct (walk e t st1) as [st3|] eqn:E3; [| discriminate E2].
        destruct (Ht _ _ _ _ _ _ P1 E3) as (s3 & lns3 & lss3 & lsr3 & I3 & P3 & R3).
        destruct (IH2 _ _ _ _ _ P3 E2) as (s4 & lns4 & lss4 & lsr4 & I4 & P4 & R4).
        exists s4, lns4, lss4, lsr4. rewrite walk_trees_cons, I3, bind_ok. split; [exact I4 | split; [exact P4 | congruence]]. }
    destruct W as (s2 & lns2 & lss2 & lsr2 & I2 & P2 & R2). rewrite I2, bind_ok.
    destruct (exit_paired n h lw st2 s2 lns2 lss2 lsr2 r ch st' P2 H) as (s3 & lns3 & lss3 & lsr3 & I3 & P3 & R3). rewrite I3, bind_ok.
    destruct (p_w _ _ _ _ _ _ _ P3) as (o3 & rv3 & ev3 & L3 & _).
    change (invoke (40 + n) (VPtr lw) "ExitEveryRule" [VCtx r ch] s3) with (invoke (S (S (38 + n))) (VPtr lw) "ExitEveryRule" [VCtx r ch] s3).
    erewrite call_empty; [| exact L3 | vm_compute; reflexivity]. rewrite bind_ok. exists s3, lns3, lss3, lsr3. split; [reflexivity | split; [exact P3 | congruence]].
Qed.
End GoWalk.
