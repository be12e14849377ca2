(** C63: how often the generated parser asks the runtime. *)
From Coq Require Import List NArith ZArith Bool Arith Lia.
From Verif Require Import Lexer Grammar Parser Spec ParserFacts Static Cfws First GenSyntax GenAtn GenCode GenRun GenShape GenNet GenCheck GenFacts.
Import ListNotations.

(** ** The number of requests *)

(** [asks p m o]: [p] can, with allowed replies, make [m] requests and end with [o]. *)
(* /repo: parser/rfc5322_parser.go:872-14929 *)
Inductive asks : prog -> nat -> outcome -> Prop :=
| q_end : forall o, asks (End o) 0 o
| q_ask : forall d st w k r m o, right d st w r -> asks (k r) m o -> asks (Ask d st w k) (S m) o
| q_test : forall n t k b m o, fair n t b -> asks (k b) m o -> asks (Test n t k) (S m) o.

(** ** The price of statements: requests before anything is consumed, and what the first token leaves over *)
Definition is_match (s : stmt) : bool := match s with SMatch _ | SMatchSet _ => true | _ => false end.

Fixpoint pr1 (tbl : list nat) (s : stmt) : nat :=
  let prs := fix prs (l : list stmt) : nat :=
    match l with [] => 0 | s :: l' => if is_match s then 0 else pr1 tbl s + prs l' end in
  match s with
  | SState _ | SMatch _ | SMatchSet _ => 0
  | SSync => 1
  | SCall r => S (look 0 tbl r)
  | SIfLa _ b | SWhileLa _ b | SDoLa _ b => prs b
  | SSwitchLa bs => fold_right (fun x m => Nat.max (prs (snd x)) m) 0 bs
  | SPredict _ bs => S (fold_right (fun x m => Nat.max (prs x) m) 0 bs)
  | SWhilePredict _ b t | SDoPredict _ b t => S (prs b + prs t)
  end.

Definition prs_t (tbl : list nat) : list stmt -> nat :=
  fix prs (l : list stmt) : nat :=
    match l with [] => 0 | s :: l' => if is_match s then 0 else pr1 tbl s + prs l' end.

Definition price_table : list nat := Eval vm_compute in
  iter 67 (fun t => map (fun r => prs_t t (code r)) all_rules) (map (fun _ => 0) all_rules).
Definition prs : list stmt -> nat := prs_t price_table.

(** What one token pays for. *)
Definition token_price : nat := 320.

Fixpoint ch1 (tbl : list nat) (s : stmt) : nat :=
  let chs := fix chs (l : list stmt) : nat :=
    match l with
    | [] => token_price
    | s :: l' => if is_match s then token_price - prs l' else Nat.min (ch1 tbl s) (chs l')
    end in
  match s with
  | SState _ | SMatch _ | SMatchSet _ | SSync => token_price
  | SCall r => look 0 tbl r
  | SIfLa _ b => chs b
  | SWhileLa _ b | SDoLa _ b => chs b - prs b
  | SSwitchLa bs => fold_right (fun x m => Nat.min (chs (snd x)) m) token_price bs
  | SPredict _ bs => fold_right (fun x m => Nat.min (chs x) m) token_price bs
  | SWhilePredict _ b t | SDoPredict _ b t => chs b - S (prs b + prs t)
  end.

Definition chs_t (tbl : list nat) : list stmt -> nat :=
  fix chs (l : list stmt) : nat :=
    match l with
    | [] => token_price
    | s :: l' => if is_match s then token_price - prs l' else Nat.min (ch1 tbl s) (chs l')
    end.

Definition change_table : list nat := Eval vm_compute in
  iter 67 (fun t => map (fun r => chs_t t (code r)) all_rules) (map (fun _ => token_price) all_rules).
Definition chs : list stmt -> nat := chs_t change_table.

(** The prices are right: rules are in the tables, a token pays for what follows it, an iteration pays for itself. *)
Fixpoint paid1 (s : stmt) : bool :=
  let paids := fix paids (l : list stmt) : bool :=
    match l with [] => true | s :: l' => paid1 s && Nat.leb (prs l') token_price && paids l' end in
  match s with
  | SState _ | SMatch _ | SMatchSet _ | SSync => true
  | SCall r => Nat.leb (prs (code r)) (look 0 price_table r) && Nat.leb (look 0 change_table r) (chs (code r))
  | SIfLa _ b => paids b
  | SWhileLa _ b | SDoLa _ b => paids b && Nat.leb (prs b) (chs b)
  | SSwitchLa bs => forallb (fun x => paids (snd x)) bs
  | SPredict _ bs => forallb paids bs
  | SWhilePredict _ b t | SDoPredict _ b t => paids b && paids t && Nat.leb (S (prs b + prs t)) (chs b)
  end.

Definition paid : list stmt -> bool :=
  fix paids (l : list stmt) : bool :=
    match l with [] => true | s :: l' => paid1 s && Nat.leb (prs l') token_price && paids l' end.

Lemma code_paid_checked : forallb (fun r => paid (code r)) all_rules = true.
Proof. vm_compute. reflexivity. Qed.

Lemma code_paid r : paid (code r) = true.
Proof. revert r. apply all_rules_forall. exact code_paid_checked. Qed.

Lemma table_price_checked : forallb (fun r => Nat.leb (prs (code r)) (look 0 price_table r) && Nat.leb (look 0 change_table r) (chs (code r))) all_rules = true.
Proof. vm_compute. reflexivity. Qed.

Lemma table_price r : prs (code r) <= look 0 price_table r /\ look 0 change_table r <= chs (code r).
Proof.
  revert r. assert (H : forall r, Nat.leb (prs (code r)) (look 0 price_table r) && Nat.leb (look 0 change_table r) (chs (code r)) = true) by (apply all_rules_forall; exact table_price_checked).
  intros r. specialize (H r). apply andb_true_iff in H. destruct H as [H1 H2]. apply Nat.leb_le in H1. apply Nat.leb_le in H2. auto.
Qed.

Lemma prs_cons s l : prs (s :: l) = if is_match s then 0 else pr1 price_table s + prs l. Proof. reflexivity. Qed.
Lemma chs_cons s l : chs (s :: l) = if is_match s then token_price - prs l else Nat.min (ch1 change_table s) (chs l). Proof. reflexivity. Qed.
Lemma paid_cons s l : paid (s :: l) = paid1 s && Nat.leb (prs l) token_price && paid l. Proof. reflexivity. Qed.
Lemma pr1_call r : pr1 price_table (SCall r) = S (look 0 price_table r). Proof. reflexivity. Qed.
Lemma pr1_if c b : pr1 price_table (SIfLa c b) = prs b. Proof. reflexivity. Qed.
Lemma pr1_while c b : pr1 price_table (SWhileLa c b) = prs b. Proof. reflexivity. Qed.
Lemma pr1_do c b : pr1 price_table (SDoLa c b) = prs b. Proof. reflexivity. Qed.
Lemma pr1_whilep d b t : pr1 price_table (SWhilePredict d b t) = S (prs b + prs t). Proof. reflexivity. Qed.
Lemma pr1_dop d b t : pr1 price_table (SDoPredict d b t) = S (prs b + prs t). Proof. reflexivity. Qed.
Lemma pr1_switch bs : pr1 price_table (SSwitchLa bs) = fold_right (fun x m => Nat.max (prs (snd x)) m) 0 bs. Proof. reflexivity. Qed.
Lemma pr1_predict d bs : pr1 price_table (SPredict d bs) = S (fold_right (fun x m => Nat.max (prs x) m) 0 bs). Proof. reflexivity. Qed.
Lemma ch1_call r : ch1 change_table (SCall r) = look 0 change_table r. Proof. reflexivity. Qed.
Lemma ch1_if c b : ch1 change_table (SIfLa c b) = chs b. Proof. reflexivity. Qed.
Lemma ch1_while c b : ch1 change_table (SWhileLa c b) = chs b - prs b. Proof. reflexivity. Qed.
Lemma ch1_do c b : ch1 change_table (SDoLa c b) = chs b - prs b. Proof. reflexivity. Qed.
Lemma ch1_whilep d b t : ch1 change_table (SWhilePredict d b t) = chs b - S (prs b + prs t). Proof. reflexivity. Qed.
Lemma ch1_dop d b t : ch1 change_table (SDoPredict d b t) = chs b - S (prs b + prs t). Proof. reflexivity. Qed.
Lemma ch1_switch bs : ch1 change_table (SSwitchLa bs) = fold_right (fun x m => Nat.min (chs (snd x)) m) token_price bs. Proof. reflexivity. Qed.
Lemma ch1_predict d bs : ch1 change_table (SPredict d bs) = fold_right (fun x m => Nat.min (chs x) m) token_price bs. Proof. reflexivity. Qed.
Lemma paid1_if c b : paid1 (SIfLa c b) = paid b. Proof. reflexivity. Qed.
Lemma paid1_while c b : paid1 (SWhileLa c b) = paid b && Nat.leb (prs b) (chs b). Proof. reflexivity. Qed.
Lemma paid1_do c b : paid1 (SDoLa c b) = paid b && Nat.leb (prs b) (chs b). Proof. reflexivity. Qed.
Lemma paid1_whilep d b t : paid1 (SWhilePredict d b t) = paid b && paid t && Nat.leb (S (prs b + prs t)) (chs b). Proof. reflexivity. Qed.
Lemma paid1_dop d b t : paid1 (SDoPredict d b t) = paid b && paid t && Nat.leb (S (prs b + prs t)) (chs b). Proof. reflexivity. Qed.
Lemma paid1_switch bs : paid1 (SSwitchLa bs) = forallb (fun x => paid (snd x)) bs. Proof. reflexivity. Qed.
Lemma paid1_predict d bs : paid1 (SPredict d bs) = forallb paid bs. Proof. reflexivity. Qed.

Lemma fold_min_nth {A} (m : A -> nat) z l : forall i x, nth_error l i = Some x -> fold_right (fun x a => Nat.min (m x) a) z l <= m x.
Proof. induction l as [|y l IH]; intros [|i] x E; try discriminate; cbn in *; [injection E as <-; lia | specialize (IH i x E); lia]. Qed.

(** ** Requests of composed programs *)
Lemma asks_every P p m o : asks p m o -> every P p -> P o.
Proof. induction 1 as [o|d st w k r m o R H IH|n t k b m o R H IH]; cbn [every]; intros E; [exact E | apply IH, E, R | apply IH, E, R]. Qed.

Lemma asks_bind p f : forall m o, asks (bind p f) m o -> exists m1 o1 m2, asks p m1 o1 /\ asks (f o1) m2 o /\ m = m1 + m2.
Proof.
  induction p as [o1|d st w k IH|n t k IH]; intros m o H; cbn [bind] in H.
  - exists 0, o1, m. split; [constructor | auto].
  - inversion H; subst. match goal with H : asks (bind _ _) _ _ |- _ => apply IH in H; destruct H as (m1 & o1 & m2 & H1 & H2 & ->) end.
    exists (S m1), o1, m2. split; [eapply q_ask; eassumption | auto].
  - inversion H; subst. match goal with H : asks (bind _ _) _ _ |- _ => apply IH in H; destruct H as (m1 & o1 & m2 & H1 & H2 & ->) end.
    exists (S m1), o1, m2. split; [eapply q_test; eassumption | auto].
Qed.

Definition broken (o : outcome) : Prop := match o with Done _ _ _ => False | _ => True end.

Lemma asks_then p k m o : asks (and_then p k) m o ->
  (asks p m o /\ broken o) \/
  exists m1 f c w m2 o2, asks p m1 (Done f c w) /\ asks (k c w) m2 o2 /\ o = prepend f o2 /\ m = m1 + m2.
Proof.
  intros H. apply asks_bind in H. destruct H as (m1 & o1 & m2 & H1 & H2 & ->). destruct o1 as [f c w| |].
  - right. apply asks_bind in H2. destruct H2 as (m3 & o2 & m4 & H2 & H3 & ->). inversion H3; subst.
    exists m1, f, c, w, m3, o2. rewrite Nat.add_0_r. auto.
  - left. inversion H2; subst. rewrite Nat.add_0_r. split; [exact H1 | exact I].
  - left. inversion H2; subst. rewrite Nat.add_0_r. split; [exact H1 | exact I].
Qed.

Lemma asks_ret f c w k m o : asks (and_then (End (Done f c w)) k) m o -> exists o2, asks (k c w) m o2 /\ o = prepend f o2.
Proof.
  intros H. apply asks_then in H. destruct H as [[H B]|(m1 & f1 & c1 & w1 & m2 & o2 & H1 & H2 & -> & ->)].
  - inversion H; subst. destruct B.
  - inversion H1; subst. exists o2. auto.
Qed.

Lemma asks_end o m o' : asks (End o) m o' -> m = 0 /\ o' = o.
Proof. intros H. inversion H; auto. Qed.

(** ** The bill *)

(** The nodes of a tree that are not leaves. *)
Fixpoint nodes_of (t : tree) : nat :=
  match t with
  | Leaf _ => 0
  | Node _ f => S ((fix all (l : list tree) : nat := match l with [] => 0 | x :: l' => nodes_of x + all l' end) f)
  end.
Fixpoint size (f : list tree) : nat := match f with [] => 0 | t :: f' => nodes_of t + size f' end.

Lemma nodes_node r f : nodes_of (Node r f) = S (size f).
Proof. reflexivity. Qed.

Lemma size_app f g : size (f ++ g) = size f + size g.
Proof. induction f as [|t f IH]; cbn; [reflexivity | rewrite IH; lia]. Qed.

(** [bill a c w m o]: a run before [w] that made [m] requests and ended with [o] costs at most [a], and for each
    token the price of a token, of which [c] is left if there was a token. *)
Definition bill (a c : nat) (w : word) (m : nat) (o : outcome) : Prop :=
  match o with
  | Done f _ w' => length w' <= length w /\
      m + size f + token_price * length w' <= a + token_price * length w /\
      (length w' < length w -> m + size f + token_price * length w' + c <= a + token_price * length w)
  | _ => m <= a + token_price * length w
  end.

Lemma bill_weaken a c a' c' w m o : a <= a' -> c' <= c -> bill a c w m o -> bill a' c' w m o.
Proof. intros H1 H2. destruct o as [f c0 w'| |]; cbn [bill]; intros H; intuition lia. Qed.

Lemma bill_seq a c w m1 f1 c1 w1 a' c' m2 o2 : bill a c w m1 (Done f1 c1 w1) -> bill a' c' w1 m2 o2 ->
  bill (a + a') (Nat.min c c') w (m1 + m2) (prepend f1 o2).
Proof.
  unfold bill, token_price. intros (H1 & H2 & H3) H4. destruct o2 as [f2 c2 w2| |]; cbn [prepend].
  - destruct H4 as (H4 & H5 & H6). rewrite size_app. repeat split; lia.
  - lia.
  - lia.
Qed.

Lemma bill_broken a c a' c' w m o : broken o -> a <= a' -> bill a c w m o -> bill a' c' w m o.
Proof. destruct o as [f c0 w'| |]; cbn; [contradiction | lia | lia]. Qed.

Lemma bill_more a c w m o : bill a c w m o -> bill (S a) c w (S m) o.
Proof. unfold bill. destruct o as [f c0 w'| |]; intros H; intuition lia. Qed.

(** After an iteration that consumed something: it has paid for itself. *)
Lemma bill_again a c w m1 f1 c1 w1 a' c' m2 o2 : length w1 < length w -> bill a c w m1 (Done f1 c1 w1) ->
  bill a' c' w1 m2 o2 -> a + c' <= c -> bill a' c' w (m1 + m2) (prepend f1 o2).
Proof.
  unfold bill, token_price. intros L (_ & _ & H3) H4 Hc. specialize (H3 L). destruct o2 as [f2 c2 w2| |]; cbn [prepend].
  - destruct H4 as (H4 & H5 & H6). rewrite size_app. repeat split; lia.
  - lia.
  - lia.
Qed.

(** The end of an iteration consumes nothing. *)
Lemma bill_trail a c w m1 f1 c1 w1 a' c' m2 f2 c2 w2 : length w1 < length w -> bill a c w m1 (Done f1 c1 w1) ->
  bill a' c' w1 m2 (Done f2 c2 w2) -> bill (a + a') c w (m1 + m2) (Done (f1 ++ f2) c2 w2).
Proof.
  unfold bill, token_price. intros L (_ & _ & H3) (H4 & H5 & _). specialize (H3 L). rewrite size_app. repeat split; lia.
Qed.

Lemma prepend_app f g o : prepend f (prepend g o) = prepend (f ++ g) o.
Proof. destruct o as [f' c w| |]; cbn; [rewrite app_assoc; reflexivity | reflexivity | reflexivity]. Qed.

Ltac tidy := repeat match goal with
  | H : cond_ok _ = true |- _ => clear H
  | H : subset _ _ = true |- _ => clear H
  | H : disjoint _ _ = true |- _ => clear H
  | H : (match gxl _ with [] => _ | _ :: _ => _ end) = true |- _ => clear H
  end.

(** ** The bill of a run *)
Lemma run_bill n : forall flw cs oc k cur st w m o, chk flw cs oc k = true -> paid cs = true ->
  asks (run n cs cur st w) m o -> bill (prs cs) (chs cs) w m o.
Proof.
  induction n as [|n IH]; intros flw cs oc k cur st w m o Hc Hp H; cbn [run] in H.
  { apply asks_end in H. destruct H as [-> ->]. cbn. lia. }
  destruct cs as [|s cs]; [apply asks_end in H; destruct H as [-> ->]; cbn; repeat split; lia|].
  assert (Hp' := Hp). rewrite paid_cons in Hp. apply andb_true_iff in Hp. destruct Hp as [Hp1 Hp2]. apply andb_true_iff in Hp1. destruct Hp1 as [Hp1 Hp0].
  apply Nat.leb_le in Hp0.
  assert (Hc' := Hc). rewrite chk_cons in Hc. apply andb_true_iff in Hc. destruct Hc as [Hs Hc].
  assert (Rest : forall c1 w1 m o, asks (run n cs c1 st w1) m o -> bill (prs cs) (chs cs) w1 m o).
  { intros c1 w1 m0 o0 H0. exact (IH flw cs _ k c1 st w1 m0 o0 Hc Hp2 H0). }
  assert (Again : forall c1 w1 m o, asks (run n (s :: cs) c1 st w1) m o -> bill (prs (s :: cs)) (chs (s :: cs)) w1 m o).
  { intros c1 w1 m0 o0 H0. exact (IH flw (s :: cs) oc k c1 st w1 m0 o0 Hc' Hp' H0). }
  assert (Skip : forall c1 m o, is_match s = false -> asks (run n cs c1 st w) m o -> bill (prs (s :: cs)) (chs (s :: cs)) w m o).
  { intros c1 m0 o0 Hm H0. rewrite prs_cons, chs_cons, Hm. eapply bill_weaken; [| |apply (Rest _ _ _ _ H0)]; lia. }
  assert (Fail : forall m o, asks (End Failed) m o -> bill (prs (s :: cs)) (chs (s :: cs)) w m o).
  { intros m0 o0 H0. apply asks_end in H0. destruct H0 as [-> ->]. cbn. lia. }
  assert (Blk : forall b kb c1 m o, is_match s = false -> chk flw b None kb = true -> paid b = true ->
    prs b <= pr1 price_table s -> ch1 change_table s <= chs b ->
    asks (and_then (run n b c1 st w) (fun c v => run n cs c st v)) m o -> bill (prs (s :: cs)) (chs (s :: cs)) w m o).
  { intros b kb c1 m0 o0 Hm Hb Hpb Hp3 Hc3 H0. rewrite prs_cons, chs_cons, Hm. apply asks_then in H0.
    destruct H0 as [[H0 B]|(m1 & f & c2 & w1 & m2 & o2 & H1 & H2 & -> & ->)].
    - eapply bill_broken; [exact B | |eapply IH; [exact Hb | exact Hpb | eassumption]]. lia.
    - eapply bill_weaken; [| |eapply bill_seq; [eapply IH; [exact Hb | exact Hpb | eassumption] | eapply Rest; eassumption]]; lia. }
  assert (Eat : forall b kb c1 m1 f c2 w1, chk flw b None kb = true -> nullable (gx b) = false ->
    asks (run n b c1 st w) m1 (Done f c2 w1) -> length w1 < length w).
  { intros b kb c1 m1 f c2 w1 Hb Hn H0. pose proof (asks_every _ _ _ _ H0 (run_sound n _ _ _ _ c1 st w Hb)) as [D1 E1].
    eapply consumed; [apply dl_seqs; exact D1 | exact E1 | exact Hn]. }
  destruct s as [q| |t|cd|r|cd b|cd b|cd b|bs|d bs|d b t|d b t].
  - eapply Skip; [reflexivity | exact H].
  - inversion H; subst. destruct b.
    + match goal with H : asks (End Failed) _ _ |- _ => apply asks_end in H; destruct H as [-> ->] end. cbn. lia.
    + rewrite prs_cons, chs_cons. cbn [is_match pr1]. match goal with H : asks (run _ _ _ _ _) _ _ |- _ => apply Rest in H; rename H into R end.
      apply bill_more in R. eapply bill_weaken; [| |exact R]; lia.
  - destruct w as [|x w]; [exact (Fail _ _ H)|]. destruct (N.eqb (tt x) t); [|exact (Fail _ _ H)]. apply asks_ret in H. destruct H as (o2 & H & ->).
    apply Rest in H. rewrite prs_cons, chs_cons. cbn [is_match]. unfold bill, token_price in *. clear -H Hp0. destruct o2 as [f c0 w'| |]; cbn [prepend length size app nodes_of] in *; repeat split; lia.
  - destruct w as [|x w]; [exact (Fail _ _ H)|]. destruct (eval cd (tt x)); [|exact (Fail _ _ H)]. apply asks_ret in H. destruct H as (o2 & H & ->).
    apply Rest in H. rewrite prs_cons, chs_cons. cbn [is_match]. unfold bill, token_price in *. clear -H Hp0. destruct o2 as [f c0 w'| |]; cbn [prepend length size app nodes_of] in *; repeat split; lia.
  - rewrite prs_cons, chs_cons, pr1_call, ch1_call. cbn [is_match]. destruct (table_price r) as [T1 T2].
    apply asks_bind in H. destruct H as (m1 & o1 & m2 & H1 & H2 & ->). apply (IH _ _ _ _ _ _ _ _ _ (code_chk r) (code_paid r)) in H1.
    destruct o1 as [f1 c1 w1| |].
    + apply asks_ret in H2. destruct H2 as (o2 & H2 & ->). apply Rest in H2.
      assert (B1 : bill (S (look 0 price_table r)) (look 0 change_table r) w m1 (Done [Node r f1] c1 w1)).
      { unfold bill in *. destruct H1 as (H3 & H4 & H5). cbn [size]. rewrite nodes_node. repeat split; intuition lia. }
      exact (bill_seq _ _ _ _ _ _ _ _ _ _ _ B1 H2).
    + apply asks_end in H2. destruct H2 as [-> ->]. rewrite Nat.add_0_r. eapply bill_broken; [exact I | |exact H1]. lia.
    + apply asks_end in H2. destruct H2 as [-> ->]. rewrite Nat.add_0_r. eapply bill_broken; [exact I | |exact H1]. lia.
  - rewrite chk1_if in Hs. rewrite paid1_if in Hp1. bools. tidy.
    match goal with H : chk _ b _ _ = true |- _ => rename H into Hb end.
    destruct (eval cd (la w)).
    + eapply Blk; [reflexivity | exact Hb | exact Hp1 | rewrite pr1_if; lia | rewrite ch1_if; lia | exact H].
    + eapply Skip; [reflexivity | exact H].
  - rewrite chk1_while in Hs. rewrite paid1_while in Hp1. bools. tidy.
    match goal with H : chk _ b _ _ = true |- _ => rename H into Hb end.
    match goal with H : negb (nullable _) = true |- _ => apply negb_true_iff in H; rename H into Hnn end.
    match goal with H : Nat.leb _ _ = true |- _ => apply Nat.leb_le in H; rename H into Hle end.
    match goal with H : paid b = true |- _ => rename H into Pb end.
    destruct (eval cd (la w)); [|eapply Skip; [reflexivity | exact H]].
    apply asks_then in H. destruct H as [[H B]|(m1 & f & c2 & w1 & m2 & o2 & H1 & H2 & -> & ->)].
    + eapply bill_broken; [exact B | |eapply IH; [exact Hb | exact Pb | eassumption]]. rewrite prs_cons, pr1_while. cbn [is_match]. lia.
    + pose proof (Eat _ _ _ _ _ _ _ Hb Hnn H1) as L. eapply bill_again; [exact L | eapply IH; [exact Hb | exact Pb | eassumption] | exact (Again _ _ _ _ H2)|].
      rewrite chs_cons, ch1_while. cbn [is_match]. lia.
  - rewrite chk1_do in Hs. rewrite paid1_do in Hp1. bools. tidy.
    match goal with H : chk _ b _ _ = true |- _ => rename H into Hb end.
    match goal with H : negb (nullable _) = true |- _ => apply negb_true_iff in H; rename H into Hnn end.
    match goal with H : Nat.leb _ _ = true |- _ => apply Nat.leb_le in H; rename H into Hle end.
    match goal with H : paid b = true |- _ => rename H into Pb end.
    apply asks_then in H. destruct H as [[H B]|(m1 & f & c2 & w1 & m2 & o2 & H1 & H2 & -> & ->)].
    + eapply bill_broken; [exact B | |eapply IH; [exact Hb | exact Pb | eassumption]]. rewrite prs_cons, pr1_do. cbn [is_match]. lia.
    + pose proof (Eat _ _ _ _ _ _ _ Hb Hnn H1) as L. destruct (eval cd (la w1)).
      * eapply bill_again; [exact L | eapply IH; [exact Hb | exact Pb | eassumption] | exact (Again _ _ _ _ H2)|]. rewrite chs_cons, ch1_do. cbn [is_match]. lia.
      * rewrite prs_cons, chs_cons, pr1_do, ch1_do. cbn [is_match].
        eapply bill_weaken; [| |eapply bill_seq; [eapply IH; [exact Hb | exact Pb | eassumption] | exact (Rest _ _ _ _ H2)]]; lia.
  - rewrite chk1_switch in Hs. apply andb_true_iff in Hs. destruct Hs as [Hb _]. apply andb_true_iff in Hb. destruct Hb as [_ Hb]. rewrite paid1_switch in Hp1.
    destruct (pick_case (la w) bs) as [b|] eqn:P; [|exact (Fail _ _ H)]. apply pick_case_In in P. destruct P as (i & ts & P).
    pose proof (forallb_nth _ _ _ _ Hb P) as Hb1'. pose proof (forallb_nth _ _ _ _ Hp1 P) as Hs1. cbn [snd] in *.
    eapply Blk; [reflexivity | exact Hb1' | exact Hs1 | | | exact H].
    + rewrite pr1_switch. apply (fold_max_nth (fun x => prs (snd x)) bs i _ P).
    + rewrite ch1_switch. apply (fold_min_nth (fun x => chs (snd x)) token_price bs i _ P).
  - rewrite chk1_predict in Hs. apply andb_true_iff in Hs. destruct Hs as [Hb Ht]. apply andb_true_iff in Hb. destruct Hb as [Hb _]. apply andb_true_iff in Hb. destruct Hb as [_ Hb].
    rewrite paid1_predict in Hp1. inversion H; subst. match goal with H : asks (match _ with _ => _ end) _ _ |- _ => rename H into H0 end.
    assert (Skip' : forall c1 m o, asks (run n cs c1 st w) m o -> bill (prs (SPredict d bs :: cs)) (chs (SPredict d bs :: cs)) w (S m) o).
    { intros c1 m1 o1 H1. apply Rest in H1. apply bill_more in H1. rewrite prs_cons, chs_cons, pr1_predict. cbn [is_match]. eapply bill_weaken; [| |exact H1]; lia. }
    destruct r as [[|j]|]; [exact (Skip' _ _ _ H0)| |].
    + destruct (nth_error bs j) as [b|] eqn:Eb; [|exact (Skip' _ _ _ H0)].
      pose proof (forallb_nth _ _ _ _ Hb Eb) as Hb1'. pose proof (forallb_nth _ _ _ _ Hp1 Eb) as Hs1. cbn beta in *.
      pose proof (fold_max_nth prs bs j _ Eb) as M1. pose proof (fold_min_nth chs token_price bs j _ Eb) as M2.
      rewrite prs_cons, chs_cons, pr1_predict, ch1_predict. cbn [is_match]. apply asks_then in H0.
      destruct H0 as [[H0 B]|(m1 & f & c2 & w1 & m2 & o2 & H1 & H2 & -> & ->)].
      * eapply bill_broken; [exact B | |eapply bill_more; eapply IH; [exact Hb1' | exact Hs1 | eassumption]]. lia.
      * change (S (m1 + m2)) with (S m1 + m2). eapply bill_weaken; [| |eapply bill_seq; [eapply bill_more; eapply IH; [exact Hb1' | exact Hs1 | eassumption] | eapply Rest; eassumption]]; lia.
    + apply asks_end in H0. destruct H0 as [-> ->]. cbn [bill]. rewrite prs_cons, pr1_predict. cbn [is_match]. lia.
  - rewrite chk1_whilep in Hs. rewrite paid1_whilep in Hp1. apply andb_true_iff in Hs. destruct Hs as [Hs Ht2]. bools. tidy.
    match goal with H : chk _ b _ _ = true |- _ => rename H into Hb end. match goal with H : chk _ t _ _ = true |- _ => rename H into Htt end.
    match goal with H : negb (nullable _) = true |- _ => apply negb_true_iff in H; rename H into Hnn end.
    match goal with H : Nat.leb _ _ = true |- _ => apply Nat.leb_le in H; rename H into Hle end.
    match goal with H : paid b = true |- _ => rename H into Pb end. match goal with H : paid t = true |- _ => rename H into Pt end.
    assert (L2 : length (alternatives d) = 2).
    { match goal with H : decides _ _ = true |- _ => apply andb_true_iff in H; destruct H as [H _]; apply all_eps_map in H; rewrite H end. rewrite map_length.
      apply all2_nth in Ht2. destruct Ht2 as [Ht2 _]. exact Ht2. }
    match goal with H : decides _ _ = true |- _ => clear H end.
    inversion H; subst. match goal with H : asks (match _ with _ => _ end) _ _ |- _ => rename H into H0 end.
    match goal with H : right _ _ _ _ |- _ => destruct H as [Hr _] end.
    assert (Skip' : forall c1 m o, asks (run n cs c1 st w) m o -> bill (prs (SWhilePredict d b t :: cs)) (chs (SWhilePredict d b t :: cs)) w (S m) o).
    { intros c1 m1 o1 H1. apply Rest in H1. apply bill_more in H1. rewrite prs_cons, chs_cons, pr1_whilep. cbn [is_match]. eapply bill_weaken; [| |exact H1]; lia. }
    destruct r as [i|].
    + specialize (Hr i eq_refl). destruct i as [|[|[|i]]]; try lia; [|exact (Skip' _ _ _ H0)].
      apply asks_then in H0. destruct H0 as [[H0 B]|(m1 & f & c2 & w1 & m2 & o2 & H1 & H2 & -> & ->)].
      * eapply bill_broken; [exact B | |eapply bill_more; eapply IH; [exact Hb | exact Pb | eassumption]]. rewrite prs_cons, pr1_whilep. cbn [is_match]. lia.
      * pose proof (Eat _ _ _ _ _ _ _ Hb Hnn H1) as L. apply (IH _ _ _ _ _ _ _ _ _ Hb Pb) in H1. apply bill_more in H1.
        apply asks_then in H2. destruct H2 as [[H2 B]|(m3 & f3 & c3 & w3 & m4 & o4 & H3 & H4 & -> & ->)].
        -- apply (IH _ _ _ _ _ _ _ _ _ Htt Pt) in H2. pose proof (bill_seq _ _ _ _ _ _ _ _ _ _ _ H1 H2) as H3.
           eapply bill_broken; [| |exact H3]; [destruct o2; [destruct B | exact I | exact I]|]. rewrite prs_cons, pr1_whilep. cbn [is_match]. lia.
        -- apply (IH _ _ _ _ _ _ _ _ _ Htt Pt) in H3. pose proof (bill_trail _ _ _ _ _ _ _ _ _ _ _ _ _ L H1 H3) as H5.
           rewrite prepend_app. change (S (m1 + (m3 + m4))) with (S m1 + (m3 + m4)). rewrite Nat.add_assoc.
           eapply bill_again; [|exact H5 | exact (Again _ _ _ _ H4)|]; [destruct H3 as [H3 _]; lia|].
           rewrite chs_cons, ch1_whilep. cbn [is_match]. lia.
    + apply asks_end in H0. destruct H0 as [-> ->]. cbn [bill]. rewrite prs_cons, pr1_whilep. cbn [is_match]. lia.
  - rewrite chk1_dop in Hs. rewrite paid1_dop in Hp1. apply andb_true_iff in Hs. destruct Hs as [Hs Ht2]. bools. tidy.
    match goal with H : decides _ _ = true |- _ => clear H end.
    match goal with H : chk _ b _ _ = true |- _ => rename H into Hb end. match goal with H : chk _ t _ _ = true |- _ => rename H into Htt end.
    match goal with H : negb (nullable _) = true |- _ => apply negb_true_iff in H; rename H into Hnn end.
    match goal with H : Nat.leb _ _ = true |- _ => apply Nat.leb_le in H; rename H into Hle end.
    match goal with H : paid b = true |- _ => rename H into Pb end. match goal with H : paid t = true |- _ => rename H into Pt end.
    apply asks_then in H. destruct H as [[H B]|(m1 & f & c2 & w1 & m2 & o2 & H1 & H2 & -> & ->)].
    + eapply bill_broken; [exact B | |eapply IH; [exact Hb | exact Pb | eassumption]]. rewrite prs_cons, pr1_dop. cbn [is_match]. lia.
    + pose proof (Eat _ _ _ _ _ _ _ Hb Hnn H1) as L. apply (IH _ _ _ _ _ _ _ _ _ Hb Pb) in H1.
      apply asks_then in H2. destruct H2 as [[H2 B]|(m3 & f3 & c3 & w3 & m4 & o4 & H3 & H4 & -> & ->)].
      * apply (IH _ _ _ _ _ _ _ _ _ Htt Pt) in H2. pose proof (bill_seq _ _ _ _ _ _ _ _ _ _ _ H1 H2) as H3.
        eapply bill_broken; [| |exact H3]; [destruct o2; [destruct B | exact I | exact I]|]. rewrite prs_cons, pr1_dop. cbn [is_match]. lia.
      * apply (IH _ _ _ _ _ _ _ _ _ Htt Pt) in H3. pose proof (bill_trail _ _ _ _ _ _ _ _ _ _ _ _ _ L H1 H3) as H5. apply bill_more in H5.
        assert (L3 : length w3 < length w) by (destruct H3 as [H3 _]; lia).
        inversion H4; subst. match goal with H : asks (match _ with _ => _ end) _ _ |- _ => rename H into H6 end.
        rewrite prepend_app. replace (m1 + (m3 + S m)) with (S (m1 + m3) + m) by lia.
        destruct r as [[|[|[|i]]]|].
        -- apply Rest in H6. rewrite prs_cons, chs_cons, pr1_dop, ch1_dop. cbn [is_match]. eapply bill_weaken; [| |exact (bill_seq _ _ _ _ _ _ _ _ _ _ _ H5 H6)]; lia.
        -- eapply bill_again; [exact L3 | exact H5 | exact (Again _ _ _ _ H6)|]. rewrite chs_cons, ch1_dop. cbn [is_match]. lia.
        -- apply Rest in H6. rewrite prs_cons, chs_cons, pr1_dop, ch1_dop. cbn [is_match]. eapply bill_weaken; [| |exact (bill_seq _ _ _ _ _ _ _ _ _ _ _ H5 H6)]; lia.
        -- apply asks_end in H6. destruct H6 as [-> ->]. cbn [bill prepend]. rewrite prs_cons, pr1_dop. cbn [is_match]. destruct H5 as (H5 & H7 & _). lia.
        -- apply asks_end in H6. destruct H6 as [-> ->]. cbn [bill prepend]. rewrite prs_cons, pr1_dop. cbn [is_match]. destruct H5 as (H5 & H7 & _). lia.
Qed.

(** ** What a run reads ahead over *)

(** [small l p]: every prediction that [p] asks for is made before at most [l] tokens. *)
Fixpoint small (l : nat) (p : prog) : Prop :=
  match p with
  | End _ => True
  | Ask d st w k => length w <= l /\ forall r, right d st w r -> small l (k r)
  | Test n t k => forall b, fair n t b -> small l (k b)
  end.

Lemma small_bind l (P : outcome -> Prop) f p : every P p -> small l p -> (forall o, P o -> small l (f o)) -> small l (bind p f).
Proof.
  induction p as [o|d st w k IH|n t k IH]; cbn [every small bind]; intros H1 H2 H3; [apply H3; exact H1| |].
  - destruct H2 as [H2 H4]. split; [exact H2|]. intros r R. apply IH; auto.
  - intros b B. apply IH; auto.
Qed.

Definition left_at_most (l : nat) (o : outcome) : Prop := match o with Done _ _ w => length w <= l | _ => True end.

Lemma small_then l p k : every (left_at_most l) p -> small l p -> (forall c w, length w <= l -> small l (k c w)) -> small l (and_then p k).
Proof.
  intros H1 H2 H3. unfold and_then. eapply small_bind; [exact H1 | exact H2|]. intros [f c w| |] H; [|exact I|exact I].
  specialize (H3 c w H). clear -H3. induction (k c w) as [o|d st w0 k0 IH|n t k0 IH]; cbn [bind small] in *; [exact I| |].
  - destruct H3 as [H3 H4]. split; [exact H3|]. intros r R. apply IH, H4, R.
  - intros b B. apply IH, H3, B.
Qed.

Lemma small_ret l f c w k : length w <= l -> small l (k c w) -> small l (and_then (End (Done f c w)) k).
Proof.
  intros H1 H2. unfold and_then. cbn [bind]. clear -H2. induction (k c w) as [o|d st w0 k0 IH|n t k0 IH]; cbn [bind small] in *; [exact I| |].
  - destruct H2 as [H3 H4]. split; [exact H3|]. intros r R. apply IH, H4, R.
  - intros b B. apply IH, H2, B.
Qed.

Lemma run_small l n : forall flw cs oc k cur st w, chk flw cs oc k = true -> length w <= l -> small l (run n cs cur st w).
Proof.
  induction n as [|n IH]; intros flw cs oc k cur st w Hc Hw; [exact I|]. cbn [run].
  destruct cs as [|s cs]; [exact I|]. assert (Hc' := Hc). rewrite chk_cons in Hc. apply andb_true_iff in Hc. destruct Hc as [Hs Hc].
  assert (Lft : forall cs oc k cur st w, chk flw cs oc k = true -> length w <= l -> every (left_at_most l) (run n cs cur st w)).
  { intros cs0 oc0 k0 cur0 st0 w0 H0 L0. eapply every_mono; [|apply (run_sound n _ _ _ _ cur0 st0 w0 H0)].
    intros [f c w1| |] H; [|exact I|exact I]. destruct H as [_ ->]. cbn. rewrite app_length in L0. lia. }
  assert (Rest : forall c1 w1, length w1 <= l -> small l (run n cs c1 st w1)) by (intros c1 w1 L; eapply IH; [exact Hc | exact L]).
  assert (Again : forall c1 w1, length w1 <= l -> small l (run n (s :: cs) c1 st w1)) by (intros c1 w1 L; eapply IH; [exact Hc' | exact L]).
  assert (Blk : forall b kb c1 K, chk flw b None kb = true -> (forall c w, length w <= l -> small l (K c w)) -> small l (and_then (run n b c1 st w) K)).
  { intros b kb c1 K Hb HK. apply small_then; [eapply Lft; eassumption | eapply IH; eassumption | exact HK]. }
  destruct s as [q| |t|cd|r|cd b|cd b|cd b|bs|d bs|d b t|d b t].
  - apply Rest. exact Hw.
  - cbn [small]. intros [|] _; [exact I | apply Rest; exact Hw].
  - destruct w as [|x w]; [exact I|]. destruct (N.eqb (tt x) t); [|exact I]. cbn [length] in Hw. apply small_ret; [|apply Rest]; lia.
  - destruct w as [|x w]; [exact I|]. destruct (eval cd (tt x)); [|exact I]. cbn [length] in Hw. apply small_ret; [|apply Rest]; lia.
  - eapply small_bind; [eapply every_mono; [|apply (run_sound n _ _ _ _ (enter_state r) (cur :: st) w (code_chk r))]
      | eapply IH; [apply code_chk | exact Hw] |].
    + intros o H. exact H.
    + intros [f c w1| |] H; [|exact I|exact I]. destruct H as [_ ->]. rewrite app_length in Hw. apply small_ret; [|apply Rest]; lia.
  - rewrite chk1_if in Hs. bools. destruct (eval cd (la w)); [eapply Blk; [eassumption | exact Rest] | apply Rest; exact Hw].
  - rewrite chk1_while in Hs. bools. destruct (eval cd (la w)); [eapply Blk; [eassumption | exact Again] | apply Rest; exact Hw].
  - rewrite chk1_do in Hs. bools. eapply Blk; [eassumption|]. intros c v L. destruct (eval cd (la v)); [apply Again | apply Rest]; exact L.
  - rewrite chk1_switch in Hs. apply andb_true_iff in Hs. destruct Hs as [Hb _]. apply andb_true_iff in Hb. destruct Hb as [_ Hb].
    destruct (pick_case (la w) bs) as [b|] eqn:P; [|exact I]. apply pick_case_In in P. destruct P as (i & ts & P).
    pose proof (forallb_nth _ _ _ _ Hb P) as Hb1. cbn [snd] in Hb1. eapply Blk; [exact Hb1 | exact Rest].
  - rewrite chk1_predict in Hs. apply andb_true_iff in Hs. destruct Hs as [Hb Ht]. apply andb_true_iff in Hb. destruct Hb as [Hb _]. apply andb_true_iff in Hb. destruct Hb as [_ Hb].
    cbn [small]. split; [exact Hw|]. intros [[|j]|] _; [apply Rest; exact Hw | |exact I].
    destruct (nth_error bs j) as [b|] eqn:Eb; [|apply Rest; exact Hw]. pose proof (forallb_nth _ _ _ _ Hb Eb) as Hb1. eapply Blk; [exact Hb1 | exact Rest].
  - rewrite chk1_whilep in Hs. apply andb_true_iff in Hs. destruct Hs as [Hs Ht2]. bools.
    match goal with H : chk _ b _ _ = true |- _ => rename H into Hb end. match goal with H : chk _ t _ _ = true |- _ => rename H into Htt end.
    assert (Tr : forall c1 v, length v <= l -> small l (and_then (run n t c1 st v) (fun c2 u => run n (SWhilePredict d b t :: cs) c2 st u))).
    { intros c1 v L. apply small_then; [eapply Lft; eassumption | eapply IH; eassumption | exact Again]. }
    cbn [small]. split; [exact Hw|]. intros [[|[|[|i]]]|] _; [apply Rest; exact Hw | eapply Blk; [exact Hb | exact Tr] | apply Rest; exact Hw | apply Tr; exact Hw | exact I].
  - rewrite chk1_dop in Hs. apply andb_true_iff in Hs. destruct Hs as [Hs Ht2]. bools.
    match goal with H : chk _ b _ _ = true |- _ => rename H into Hb end. match goal with H : chk _ t _ _ = true |- _ => rename H into Htt end.
    eapply Blk; [exact Hb|]. intros c1 v L. apply small_then; [eapply Lft; eassumption | eapply IH; eassumption |].
    intros c2 u L2. cbn [small]. split; [exact L2|]. intros [[|[|[|i]]]|] _; [apply Rest; exact L2 | apply Again; exact L2 | apply Rest; exact L2 | exact I | exact I].
Qed.

(** ** The rule function of any rule *)
Theorem C63_requests n r w m o : asks (start n r w) m o ->
  match o with
  | Done f _ _ => m + size f <= S (look 0 price_table r) + token_price * length w
  | _ => m <= look 0 price_table r + token_price * length w
  end.
Proof.
  unfold start. intros H. apply asks_bind in H. destruct H as (m1 & o1 & m2 & H1 & H2 & ->).
  apply (run_bill n _ _ _ _ _ _ _ _ _ (code_chk r) (code_paid r)) in H1. destruct (table_price r) as [T _]. unfold token_price in *.
  destruct o1 as [f c w'| |]; apply asks_end in H2; destruct H2 as [-> ->]; unfold bill, token_price in H1; rewrite Nat.add_0_r.
  - cbn [size]. rewrite nodes_node. lia.
  - lia.
  - lia.
Qed.

Lemma start_small n r w : small (length w) (start n r w).
Proof.
  unfold start. eapply small_bind; [apply (run_sound n _ _ _ _ (enter_state r) [] w (code_chk r)) | apply (run_small _ n _ _ _ _ (enter_state r) [] w (code_chk r)); lia|].
  intros [f c w'| |] _; exact I.
Qed.
