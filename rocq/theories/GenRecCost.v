(** C63, continued: how often a run with recovery asks the runtime. *)
From Coq Require Import List NArith ZArith Bool Arith Lia FMapPositive.
From Verif Require Import Lexer Grammar Parser Spec ParserFacts Static Cfws First GenSyntax GenAtn GenCode GenRun GenShape GenNet GenCheck GenFacts GenWit GenRecover GenRecEnd.
Import ListNotations.
Local Open Scope Z_scope.

(** ** Prices *)

(** What a unit of progress pays for. *)
Notation unit_price := 500 (only parsing).

(** [fps]: requests before there is progress, from where the next token fits. *)
Fixpoint fp1 (tbl : list Z) (s : stmt) : Z :=
  let fps := fix fps (l : list stmt) : Z := match l with [] => 0 | s :: l' => fp1 tbl s + (if nul s then fps l' else 0) end in
  match s with
  | SState _ | SMatch _ | SMatchSet _ => 0
  | SSync => 1
  | SCall r => look 0 tbl r
  | SIfLa _ b | SWhileLa _ b | SDoLa _ b | SDoPredict _ b _ => fps b
  | SSwitchLa bs => fold_right (fun x m => Z.max (fps (snd x)) m) 0 bs
  | SPredict _ bs => 1 + fold_right (fun x m => Z.max (fps x) m) 0 bs
  | SWhilePredict _ b _ => 1 + fps b
  end.
Definition fps_t (tbl : list Z) : list stmt -> Z :=
  fix fps (l : list stmt) : Z := match l with [] => 0 | s :: l' => fp1 tbl s + (if nul s then fps l' else 0) end.
Definition fit_table : list Z := Eval vm_compute in
  iter 67 (fun t => map (fun r => fps_t t (code r)) all_rules) (map (fun _ => 0) all_rules).
Definition fps : list stmt -> Z := fps_t fit_table.

(** [lps]: requests without progress, from any place. *)
Fixpoint lp1 (tbl : list Z) (s : stmt) : Z :=
  let lps := fix lps (l : list stmt) : Z := match l with [] => 0 | s :: l' => lp1 tbl s + lps l' end in
  match s with
  | SState _ => 0
  | SSync | SMatch _ | SMatchSet _ => 1
  | SCall r => 1 + look 0 tbl r
  | SIfLa _ b | SWhileLa _ b => fps b
  | SDoLa _ b => lps b + fps b
  | SSwitchLa bs => fold_right (fun x m => Z.max (fps (snd x)) m) 0 bs
  | SPredict _ bs => 1 + fold_right (fun x m => Z.max (fps x) m) 0 bs
  | SWhilePredict _ b _ => 1 + fps b
  | SDoPredict _ b t => lps b + lps t + 1 + fps b
  end.
Definition lps_t (tbl : list Z) : list stmt -> Z :=
  fix lps (l : list stmt) : Z := match l with [] => 0 | s :: l' => lp1 tbl s + lps l' end.
Definition lost_price_table : list Z := Eval vm_compute in
  iter 67 (fun t => map (fun r => lps_t t (code r)) all_rules) (map (fun _ => 0) all_rules).
Definition lps : list stmt -> Z := lps_t lost_price_table.

(** [fcs]: what the first unit of progress leaves over when all that follows is paid. *)
Fixpoint fc1 (tbl : list Z) (s : stmt) : Z :=
  let fcs := fix fcs (l : list stmt) : Z :=
    match l with [] => unit_price | s :: l' => Z.min (fc1 tbl s - lps l') (if nul s then fcs l' else unit_price) end in
  match s with
  | SState _ | SSync | SMatch _ | SMatchSet _ => unit_price
  | SCall r => Z.min (look 0 tbl r) unit_price - 1
  | SIfLa _ b => fcs b
  | SWhileLa _ b | SDoLa _ b => fcs b - lp1 lost_price_table s
  | SSwitchLa bs => fold_right (fun x m => Z.min (fcs (snd x)) m) unit_price bs
  | SPredict _ bs => fold_right (fun x m => Z.min (fcs x) m) unit_price bs
  | SWhilePredict _ b t => fcs b - lps t - lp1 lost_price_table s
  | SDoPredict _ b t => fcs b - lps t - 1 - lp1 lost_price_table s
  end.
Definition fcs_t (tbl : list Z) : list stmt -> Z :=
  fix fcs (l : list stmt) : Z :=
    match l with [] => unit_price | s :: l' => Z.min (fc1 tbl s - lps l') (if nul s then fcs l' else unit_price) end.
Definition over_table : list Z := Eval vm_compute in
  iter 67 (fun t => map (fun r => fcs_t t (code r)) all_rules) (map (fun _ => unit_price) all_rules).
Definition fcs : list stmt -> Z := fcs_t over_table.

(** The prices are right: rules are in the tables; an iteration pays for the next one. *)
Fixpoint due1 (s : stmt) : bool :=
  let dues := fix dues (l : list stmt) : bool := match l with [] => true | s :: l' => due1 s && dues l' end in
  match s with
  | SState _ | SSync | SMatch _ | SMatchSet _ | SCall _ => true
  | SIfLa _ b => dues b && (0 <=? fcs b)
  | SWhileLa _ b | SDoLa _ b => dues b && (fps b <=? fcs b)
  | SSwitchLa bs => forallb (fun x => dues (snd x) && (0 <=? fcs (snd x))) bs
  | SPredict _ bs => forallb (fun b => dues b && (0 <=? fcs b)) bs
  | SWhilePredict _ b t => dues b && dues t && (lps t + 1 + fps b <=? fcs b)
  | SDoPredict _ b t => dues b && dues t && (lps t + 1 + fps b <=? fcs b)
  end.
Definition dues : list stmt -> bool :=
  fix dues (l : list stmt) : bool := match l with [] => true | s :: l' => due1 s && dues l' end.

Lemma code_dues_checked : forallb (fun r => dues (code r) && (lps (code r) <=? look 0 lost_price_table r) &&
  (fps (code r) <=? look 0 fit_table r) && (look 0 over_table r <=? fcs (code r)) && (0 <=? fcs (code r)) && (0 <=? look 0 fit_table r) && (0 <=? look 0 lost_price_table r)) all_rules = true.
Proof. vm_compute. reflexivity. Qed.

Lemma code_dues r : dues (code r) = true /\ lps (code r) <= look 0 lost_price_table r /\ fps (code r) <= look 0 fit_table r /\
  look 0 over_table r <= fcs (code r) /\ 0 <= look 0 fit_table r /\ 0 <= look 0 lost_price_table r.
Proof.
  assert (H : forall r, _ = true) by (apply all_rules_forall; exact code_dues_checked). specialize (H r). cbv beta in H.
  repeat (apply andb_true_iff in H; let K := fresh "K" in destruct H as [H K]). repeat match goal with H : (_ <=? _) = true |- _ => apply Z.leb_le in H end. auto 10.
Qed.

Lemma fps_cons s l : fps (s :: l) = fp1 fit_table s + (if nul s then fps l else 0). Proof. reflexivity. Qed.
Lemma lps_cons s l : lps (s :: l) = lp1 lost_price_table s + lps l. Proof. reflexivity. Qed.
Lemma fcs_cons s l : fcs (s :: l) = Z.min (fc1 over_table s - lps l) (if nul s then fcs l else unit_price). Proof. reflexivity. Qed.
Lemma dues_cons s l : dues (s :: l) = due1 s && dues l. Proof. reflexivity. Qed.

Lemma fp1_if c b : fp1 fit_table (SIfLa c b) = fps b. Proof. reflexivity. Qed.
Lemma fp1_while c b : fp1 fit_table (SWhileLa c b) = fps b. Proof. reflexivity. Qed.
Lemma fp1_do c b : fp1 fit_table (SDoLa c b) = fps b. Proof. reflexivity. Qed.
Lemma fp1_dop d b t : fp1 fit_table (SDoPredict d b t) = fps b. Proof. reflexivity. Qed.
Lemma fp1_whilep d b t : fp1 fit_table (SWhilePredict d b t) = 1 + fps b. Proof. reflexivity. Qed.
Lemma fp1_switch bs : fp1 fit_table (SSwitchLa bs) = fold_right (fun x m => Z.max (fps (snd x)) m) 0 bs. Proof. reflexivity. Qed.
Lemma fp1_predict d bs : fp1 fit_table (SPredict d bs) = 1 + fold_right (fun x m => Z.max (fps x) m) 0 bs. Proof. reflexivity. Qed.
Lemma lp1_if c b : lp1 lost_price_table (SIfLa c b) = fps b. Proof. reflexivity. Qed.
Lemma lp1_while c b : lp1 lost_price_table (SWhileLa c b) = fps b. Proof. reflexivity. Qed.
Lemma lp1_do c b : lp1 lost_price_table (SDoLa c b) = lps b + fps b. Proof. reflexivity. Qed.
Lemma lp1_dop d b t : lp1 lost_price_table (SDoPredict d b t) = lps b + lps t + 1 + fps b. Proof. reflexivity. Qed.
Lemma lp1_whilep d b t : lp1 lost_price_table (SWhilePredict d b t) = 1 + fps b. Proof. reflexivity. Qed.
Lemma lp1_switch bs : lp1 lost_price_table (SSwitchLa bs) = fold_right (fun x m => Z.max (fps (snd x)) m) 0 bs. Proof. reflexivity. Qed.
Lemma lp1_predict d bs : lp1 lost_price_table (SPredict d bs) = 1 + fold_right (fun x m => Z.max (fps x) m) 0 bs. Proof. reflexivity. Qed.
Lemma fc1_if c b : fc1 over_table (SIfLa c b) = fcs b. Proof. reflexivity. Qed.
Lemma fc1_while c b : fc1 over_table (SWhileLa c b) = fcs b - lp1 lost_price_table (SWhileLa c b). Proof. reflexivity. Qed.
Lemma fc1_do c b : fc1 over_table (SDoLa c b) = fcs b - lp1 lost_price_table (SDoLa c b). Proof. reflexivity. Qed.
Lemma fc1_dop d b t : fc1 over_table (SDoPredict d b t) = fcs b - lps t - 1 - lp1 lost_price_table (SDoPredict d b t). Proof. reflexivity. Qed.
Lemma fc1_whilep d b t : fc1 over_table (SWhilePredict d b t) = fcs b - lps t - lp1 lost_price_table (SWhilePredict d b t). Proof. reflexivity. Qed.
Lemma fc1_switch bs : fc1 over_table (SSwitchLa bs) = fold_right (fun x m => Z.min (fcs (snd x)) m) unit_price bs. Proof. reflexivity. Qed.
Lemma fc1_predict d bs : fc1 over_table (SPredict d bs) = fold_right (fun x m => Z.min (fcs x) m) unit_price bs. Proof. reflexivity. Qed.
Lemma due1_if c b : due1 (SIfLa c b) = dues b && (0 <=? fcs b). Proof. reflexivity. Qed.
Lemma due1_while c b : due1 (SWhileLa c b) = dues b && (fps b <=? fcs b). Proof. reflexivity. Qed.
Lemma due1_do c b : due1 (SDoLa c b) = dues b && (fps b <=? fcs b). Proof. reflexivity. Qed.
Lemma due1_switch bs : due1 (SSwitchLa bs) = forallb (fun x => dues (snd x) && (0 <=? fcs (snd x))) bs. Proof. reflexivity. Qed.
Lemma due1_predict d bs : due1 (SPredict d bs) = forallb (fun b => dues b && (0 <=? fcs b)) bs. Proof. reflexivity. Qed.
Lemma due1_whilep d b t : due1 (SWhilePredict d b t) = dues b && dues t && (lps t + 1 + fps b <=? fcs b). Proof. reflexivity. Qed.
Lemma due1_dop d b t : due1 (SDoPredict d b t) = dues b && dues t && (lps t + 1 + fps b <=? fcs b). Proof. reflexivity. Qed.

(** No price is negative. *)
Lemma zmax_nth {A} (f : A -> Z) l : forall i x, nth_error l i = Some x -> f x <= fold_right (fun x m => Z.max (f x) m) 0 l.
Proof. induction l as [|y l IH]; intros [|i] x E; cbn in *; [discriminate | discriminate | injection E as ->; lia | specialize (IH i x E); lia]. Qed.

Lemma zmax_pos {A} (f : A -> Z) l : 0 <= fold_right (fun x m => Z.max (f x) m) 0 l.
Proof. induction l as [|y l IH]; cbn; lia. Qed.

Lemma zmin_nth {A} (f : A -> Z) z l : forall i x, nth_error l i = Some x -> fold_right (fun x m => Z.min (f x) m) z l <= f x.
Proof. induction l as [|y l IH]; intros [|i] x E; cbn in *; [discriminate | discriminate | injection E as ->; lia | specialize (IH i x E); lia]. Qed.

Lemma zmin_le {A} (f : A -> Z) z l : fold_right (fun x m => Z.min (f x) m) z l <= z.
Proof. induction l as [|y l IH]; cbn; lia. Qed.

Lemma fp1_pos : forall s, 0 <= fp1 fit_table s.
Proof.
  fix F 1. intros s.
  assert (G : forall b, (fix ok (l : list stmt) : Prop := match l with [] => True | x :: l' => 0 <= fp1 fit_table x /\ ok l' end) b -> 0 <= fps b).
  { induction b as [|x b IH]; [intros _; cbn; lia|]. intros [H1 H2]. specialize (IH H2). rewrite fps_cons. destruct (nul x); lia. }
  destruct s as [q| |t|cd|r|cd b|cd b|cd b|bs|d bs|d b t|d b t]; try (cbn; lia).
  - cbn [fp1]. destruct (code_dues r) as (_ & _ & _ & _ & H & _). exact H.
  - rewrite fp1_if. apply G. clear -F. induction b as [|x b IH]; split; [apply F | exact IH].
  - rewrite fp1_while. apply G. clear -F. induction b as [|x b IH]; split; [apply F | exact IH].
  - rewrite fp1_do. apply G. clear -F. induction b as [|x b IH]; split; [apply F | exact IH].
  - rewrite fp1_switch. apply zmax_pos.
  - rewrite fp1_predict. pose proof (zmax_pos fps bs). lia.
  - rewrite fp1_whilep. assert (0 <= fps b); [|lia]. apply G. clear -F. induction b as [|x b IH]; split; [apply F | exact IH].
  - rewrite fp1_dop. apply G. clear -F. induction b as [|x b IH]; split; [apply F | exact IH].
Qed.

Lemma fps_pos l : 0 <= fps l.
Proof. induction l as [|s l IH]; [cbn; lia|]. rewrite fps_cons. pose proof (fp1_pos s). destruct (nul s); lia. Qed.

Lemma lp1_pos : forall s, 0 <= lp1 lost_price_table s.
Proof.
  fix F 1. intros s.
  assert (G : forall b, (fix ok (l : list stmt) : Prop := match l with [] => True | x :: l' => 0 <= lp1 lost_price_table x /\ ok l' end) b -> 0 <= lps b).
  { induction b as [|x b IH]; [intros _; cbn; lia|]. intros [H1 H2]. specialize (IH H2). rewrite lps_cons. lia. }
  destruct s as [q| |t|cd|r|cd b|cd b|cd b|bs|d bs|d b t|d b t]; try (cbn; lia).
  - cbn [lp1]. destruct (code_dues r) as (_ & _ & _ & _ & _ & H). lia.
  - rewrite lp1_if. apply fps_pos.
  - rewrite lp1_while. apply fps_pos.
  - rewrite lp1_do. pose proof (fps_pos b). assert (0 <= lps b); [|lia]. apply G. clear -F. induction b as [|x b IH]; split; [apply F | exact IH].
  - rewrite lp1_switch. apply zmax_pos.
  - rewrite lp1_predict. pose proof (zmax_pos fps bs). lia.
  - rewrite lp1_whilep. pose proof (fps_pos b). lia.
  - rewrite lp1_dop. pose proof (fps_pos b). assert (0 <= lps b) by (apply G; clear -F; induction b as [|x b IH]; split; [apply F | exact IH]).
    assert (0 <= lps t) by (apply G; clear -F; induction t as [|x t IH]; split; [apply F | exact IH]). lia.
Qed.

Lemma lps_pos l : 0 <= lps l.
Proof. induction l as [|s l IH]; [cbn; lia|]. rewrite lps_cons. pose proof (lp1_pos s). lia. Qed.

Lemma fcs_max l : fcs l <= unit_price.
Proof. induction l as [|s l IH]; [cbn; lia|]. rewrite fcs_cons. destruct (nul s); lia. Qed.

(** ** Counting *)

(** [rcost P q p]: whatever allowed replies [p] gets, it ends with an outcome and a number of requests that
    have [P], [q] requests having been made before. *)
(* /repo: specification *)
Fixpoint rcost (P : Z -> routcome -> Prop) (q : Z) (p : rprog) : Prop :=
  match p with
  | REnd o => P q o
  | RAsk d st w k => forall o, right d st w o -> sensible d w o -> rcost P (q + 1) (k o)
  | RSync n t k => forall r, fair_sync n t r -> rcost P (q + 1) (k r)
  | RInline n t k => forall r, fair_inline t r -> rcost P (q + 1) (k r)
  | RSkip n t k => forall i, rcost P (q + 1) (k i)
  end.

Lemma rcost_mono (P Q : Z -> routcome -> Prop) : (forall q o, P q o -> Q q o) -> forall p q, rcost P q p -> rcost Q q p.
Proof. intros H. induction p as [o|d st w k IH|n t k IH|n t k IH|n t k IH]; cbn [rcost]; intros q E; auto. Qed.

Lemma rcost_and (P : Z -> routcome -> Prop) (Q : routcome -> Prop) : forall p q, rcost P q p -> revery Q p -> rcost (fun q o => P q o /\ Q o) q p.
Proof. induction p as [o|d st w k IH|n t k IH|n t k IH|n t k IH]; cbn [rcost revery]; intros q E F; auto. Qed.

Lemma rcost_bind (P Q : Z -> routcome -> Prop) f : forall p q, rcost Q q p -> (forall q' o, Q q' o -> rcost P q' (f o)) -> rcost P q (rbind p f).
Proof. intros p q H Hf. revert q H. induction p as [o|d st w k IH|n t k IH|n t k IH|n t k IH]; cbn [rcost rbind] in *; auto. Qed.

Definition treelessq (P : Z -> routcome -> Prop) : Prop := forall q, treeless (P q).

Lemma rcost_then (P Q : Z -> routcome -> Prop) p kk q : treelessq P -> rcost Q q p ->
  (forall q' f c m, Q q' (RDone f c m) -> rcost P q' (kk c m)) ->
  (forall q' c m, Q q' (RRaise c m) -> P q' (RRaise c m)) -> (forall q', Q q' RFuel -> P q' RFuel) -> rcost P q (rthen p kk).
Proof.
  intros T H H1 H2 H3. unfold rthen. eapply rcost_bind; [exact H|]. intros q' [f c m|c m|] Ho; [|apply H2; exact Ho | apply H3; exact Ho].
  eapply rcost_bind; [exact (H1 q' f c m Ho)|]. intros q2 o Hp. cbn [rcost]. apply treeless_prepend; [apply T | exact Hp].
Qed.

Definition worth (m : mem) : Z := unit_price * Z.of_nat (phi m).

Lemma worth_less v m : (phi v < phi m)%nat -> worth v + unit_price <= worth m. Proof. unfold worth. lia. Qed.
Lemma worth_near v m : near v m -> worth v <= worth m. Proof. intros H. apply near_le in H. unfold worth. lia. Qed.
Lemma worth_same v m : phi v = phi m -> worth v = worth m. Proof. unfold worth. intros ->. reflexivity. Qed.

(** Outcomes of a run from any place. *)
Definition lpost (B : Z) (q : Z) (o : routcome) : Prop :=
  match o with RDone _ _ v | RRaise _ v => q + worth v <= B | RFuel => True end.
(** Outcomes of a run from where the next token fits. *)
Definition fpost (m : mem) (F B : Z) (q : Z) (o : routcome) : Prop :=
  match o with
  | RDone _ _ v => q + worth v + F <= B
  | RRaise _ v => (phi v < phi m)%nat /\ q + worth v + F <= B \/ phi v = phi m /\ q + worth v <= B
  | RFuel => True
  end.

Lemma treeless_lpost B : treelessq (lpost B). Proof. intros q f g c m H. exact H. Qed.
Lemma treeless_fpost m F B : treelessq (fpost m F B). Proof. intros q f g c v H. exact H. Qed.

(** The loop is entered once more. *)
Definition again_price (cs : list stmt) : option Z :=
  match cs with SDoLa _ b :: cs' | SDoPredict _ b _ :: cs' => Some (fps b + lps cs') | _ => None end.

Ltac dues := repeat match goal with
  | H : _ && _ = true |- _ => apply andb_true_iff in H; let K := fresh "D" in destruct H as [H K]
  | H : (_ <=? _) = true |- _ => apply Z.leb_le in H end.

(** What is shown of runs of [n] steps. *)
Definition paid_lost (n : nat) : Prop := forall own cs oc k cur st m, chk own cs oc k = true -> grds cs = true -> dues cs = true -> ok_state cur ->
  forall B q, q + worth m + lps cs <= B -> rcost (lpost B) q (rrun n cs cur st m).
Definition paid_fit (n : nat) : Prop := forall own cs oc k cur st m, chk own cs oc k = true -> grds cs = true -> dues cs = true -> ok_state cur ->
  goks cs = true -> fit cs (la (ws m)) -> forall B q, q + worth m + fps cs <= B -> rcost (fpost m (fcs cs) B) q (rrun n cs cur st m).
Definition paid_again (n : nat) : Prop :=
  (forall own cd b cs oc k cur st m, chk own (SDoLa cd b :: cs) oc k = true -> grds (SDoLa cd b :: cs) = true -> dues (SDoLa cd b :: cs) = true -> ok_state cur ->
   fit b (la (ws m)) -> forall B q, q + worth m + fps b + lps cs <= B -> rcost (lpost B) q (rrun n (SDoLa cd b :: cs) cur st m)) /\
  (forall own d b t cs oc k cur st m, chk own (SDoPredict d b t :: cs) oc k = true -> grds (SDoPredict d b t :: cs) = true -> dues (SDoPredict d b t :: cs) = true -> ok_state cur ->
   fit b (la (ws m)) -> forall B q, q + worth m + fps b + lps cs <= B -> rcost (lpost B) q (rrun n (SDoPredict d b t :: cs) cur st m)).

Lemma seq_lost n b kb own cur st m kk B B1 q : paid_lost n -> chk own b None kb = true -> grds b = true -> dues b = true -> ok_state cur ->
  q + worth m + lps b <= B1 -> B1 <= B ->
  (forall q' c v, ok_state c -> near v m -> q' + worth v <= B1 -> rcost (lpost B) q' (kk c v)) -> rcost (lpost B) q (rthen (rrun n b cur st m) kk).
Proof.
  intros HL H1 H2 H3 H4 H5 H6 H7. eapply rcost_then; [apply treeless_lpost | apply rcost_and; [apply (HL own b None kb cur st m H1 H2 H3 H4 B1 q H5) | apply (rrun_near n b cur st m H2 H4)] | | |].
  - intros q' f c v [K1 [K2 K3]]. apply H7; assumption.
  - intros q' c v [K1 _]. cbn [lpost] in *. lia.
  - intros q' _. exact I.
Qed.

Lemma seq_body n b kb own cur st m kk B B1 q : paid_fit n -> chk own b None kb = true -> grds b = true -> dues b = true -> ok_state cur ->
  guard b = true -> fit b (la (ws m)) -> 0 <= fcs b -> q + worth m + fps b <= B1 -> B1 <= B ->
  (forall q' c v, ok_state c -> (phi v < phi m)%nat -> q' + worth v + fcs b <= B1 -> rcost (lpost B) q' (kk c v)) -> rcost (lpost B) q (rthen (rrun n b cur st m) kk).
Proof.
  intros HF H1 H2 H3 H4 H5 H6 H7 H8 H9 H10. pose proof (guard_goks _ H5) as Hk.
  eapply rcost_then; [apply treeless_lpost | apply rcost_and; [apply (HF own b None kb cur st m H1 H2 H3 H4 Hk H6 B1 q H8) | apply (rrun_gained n own b None kb cur st m H1 H2 Hk H4 H6)] | | |].
  - intros q' f c v [K1 [K2 K3]]. apply H10; assumption.
  - intros q' c v [[[_ K]|[_ K]] _]; cbn [lpost]; lia.
  - intros q' _. exact I.
Qed.

Lemma lost_step n : paid_lost n -> paid_fit n -> paid_again n -> paid_lost (S n).
Proof.
  intros HL HF [HA1 HA2] own cs oc k cur st m Hc0 Hg0 Hd0 Hq B q Hp. cbn [rrun].
  destruct cs as [|s cs]; [cbn in *; lia|].
  assert (Hc := Hc0). rewrite chk_cons in Hc. apply andb_true_iff in Hc as [Hc1 Hc].
  assert (Hg := Hg0). rewrite grds_cons in Hg. apply andb_true_iff in Hg as [Hg1 Hg]. apply andb_true_iff in Hg1 as [_ Hg1].
  assert (Hd := Hd0). rewrite dues_cons in Hd. apply andb_true_iff in Hd as [Hd1 Hd].
  rewrite lps_cons in Hp. pose proof (lps_pos cs) as Pl.
  assert (Go : forall q' c v, ok_state c -> q' + worth v + lps cs <= B -> rcost (lpost B) q' (rrun n cs c st v)) by (intros; eapply HL; eassumption).
  assert (Gs : forall q' c v, ok_state c -> q' + worth v + lps (s :: cs) <= B -> rcost (lpost B) q' (rrun n (s :: cs) c st v)) by (intros; eapply HL; eassumption).
  rewrite lps_cons in Gs.
  assert (Tk : forall x w, ws m = x :: w -> lp1 lost_price_table s = 1 -> rcost (lpost B) q (rthen (REnd (RDone [Leaf x] cur (matched (put m w)))) (fun c v => rrun n cs c st v))).
  { intros x w E Es. eapply (rcost_then _ (fun q' o => q' = q /\ o = RDone [Leaf x] cur (matched (put m w)))); [apply treeless_lpost | cbn; auto | | | ].
    - intros q' f c v [-> [= -> -> ->]]. apply Go; [exact Hq|]. pose proof (worth_less _ _ (match_less m x w E)). lia.
    - intros q' c v [_ [=]].
    - intros q' [_ [=]]. }
  assert (In0 : lp1 lost_price_table s = 1 -> rcost (lpost B) q (inline cur m (fun m' => rrun n cs cur st m'))).
  { intros Es. unfold inline. cbn [rcost]. intros [| |] Hi; cbn [rcost lpost].
    - apply Go; [exact Hq|]. assert (N1 : near (eat (matched (eat (report m)))) m).
      { eapply near_trans; [apply near_eat|]. left. apply delete_less. apply Hi. reflexivity. }
      apply worth_near in N1. lia.
    - apply Go; [exact Hq|]. pose proof (worth_near _ _ (near_report m)). lia.
    - lia. }
  destruct s as [a| |t|cd|r|cd b|cd b|cd b|bs|d bs|d b t|d b t].
  - apply Go; [apply N.ltb_lt in Hg1; exact Hg1 | cbn [lp1] in Hp; lia].
  - cbn [lp1] in Hp. destruct (mode m); [apply Go; [exact Hq | lia]|]. cbn [rcost]. intros r Hr. destruct r as [| |i|]; cbn [rcost lpost].
    + apply Go; [exact Hq | lia].
    + apply Go; [exact Hq|]. assert (phi (matched (eat (report m))) < phi m)%nat as L1 by (apply delete_less; apply Hr; reflexivity). apply worth_less in L1. lia.
    + apply Go; [exact Hq|]. pose proof (worth_near _ _ (near_trans _ _ _ (near_skip i (report m)) (near_report m))). lia.
    + lia.
  - specialize (In0 eq_refl). destruct (ws m) as [|x w] eqn:E; [exact In0|]. destruct (N.eqb (tt x) t); [|exact In0]. apply Tk; reflexivity.
  - specialize (In0 eq_refl). destruct (ws m) as [|x w] eqn:E; [exact In0|]. destruct (eval cd (tt x)); [|exact In0]. apply Tk; reflexivity.
  - cbn [lp1] in Hp. destruct (code_grds r) as (K1 & K2 & K3). destruct (code_dues r) as (D1 & D2 & _).
    eapply (rcost_then _ (fun q' o => lpost (B - lps cs) q' o /\ match o with RDone _ c _ => ok_state c | _ => True end)); [apply treeless_lpost | | | | ].
    + eapply rcost_bind; [apply rcost_and; [apply (HL r (code r) None [] (enter_state r) (cur :: st) m (code_chk r) K1 D1 K3 (B - lps cs - 1)); lia | apply (rrun_near n _ _ _ m K1 K3)]|].
      intros q' [f c v|c v|]; cbn [catch rcost lpost nearby]; [intros [K4 [K5 K6]]; split; [lia | exact Hq] | | auto].
      intros [K4 [K5 K6]] i. split; [|exact Hq]. pose proof (worth_near _ _ (near_trans _ _ _ (proj1 (recover_near c i (report v) K5)) (near_report v))). lia.
    + intros q' f c v [K4 K5]. cbn [lpost] in K4. apply Go; [exact K5 | lia].
    + intros q' c v [K4 _]. cbn [lpost] in *. lia.
    + intros q' _. exact I.
  - rewrite lp1_if in Hp. rewrite chk1_if in Hc1. rewrite grd1_if in Hg1. rewrite due1_if in Hd1. bools. dues. rewrite (eval_spec cd (la (ws m)) ltac:(assumption)).
    pose proof (fps_pos b). destruct (memb (la (ws m)) (cond_set cd)) eqn:E.
    + apply memb_In in E. eapply (seq_body n b _ own cur st m _ B (B - lps cs)); try eassumption; try lia.
      * apply guard_fit; [assumption|]. eapply subset_In; eassumption.
      * intros q' c v K1 K2 K3. apply Go; [exact K1 | lia].
    + apply Go; [exact Hq | lia].
  - rewrite lp1_while in Hp, Gs. rewrite chk1_while in Hc1. rewrite grd1_while in Hg1. rewrite due1_while in Hd1. bools. dues. rewrite (eval_spec cd (la (ws m)) ltac:(assumption)).
    pose proof (fps_pos b). destruct (memb (la (ws m)) (cond_set cd)) eqn:E.
    + apply memb_In in E. eapply (seq_body n b _ own cur st m _ B (B - lps cs)); try eassumption; try lia.
      * apply guard_fit; [assumption|]. eapply subset_In; eassumption.
      * intros q' c v K1 K2 K3. apply Gs; [exact K1 | lia].
    + apply Go; [exact Hq | lia].
  - assert (Hg1' := Hg1). rewrite lp1_do in Hp. rewrite chk1_do in Hc1. rewrite grd1_do in Hg1. assert (Hd1' := Hd1). rewrite due1_do in Hd1. bools. dues.
    match goal with H : cond_ok cd = true |- _ => rename H into Hok end. match goal with H : subset (cond_set cd) _ = true |- _ => rename H into Hsub end.
    match goal with H : guard b = true |- _ => rename H into Hb end.
    pose proof (fps_pos b). eapply (seq_lost n b _ own cur st m _ B (B - lps cs - fps b)); try eassumption; try lia.
    intros q' c v K1 K2 K3. rewrite (eval_spec cd (la (ws v)) Hok). destruct (memb (la (ws v)) (cond_set cd)) eqn:E; [|apply Go; [exact K1 | lia]].
    apply memb_In in E. eapply HA1; try eassumption; [|lia]. apply guard_fit; [exact Hb | eapply subset_In; eassumption].
  - rewrite lp1_switch in Hp. rewrite chk1_switch in Hc1. rewrite grd1_switch in Hg1. rewrite due1_switch in Hd1.
    pose proof (zmax_pos (fun x : list ttype * list stmt => fps (snd x)) bs) as Zp.
    destruct (pick_case (la (ws m)) bs) as [b|] eqn:P; [|cbn [rcost lpost]; lia].
    apply pick_label in P as (ts' & Hin & Hla).
    apply andb_true_iff in Hc1 as [Hc1 _]. apply andb_true_iff in Hc1 as [_ Hc1].
    rewrite forallb_forall in Hc1, Hg1, Hd1. specialize (Hc1 _ Hin). specialize (Hg1 _ Hin). specialize (Hd1 _ Hin). cbn [fst snd] in *. bools. dues.
    apply In_nth_error in Hin as [i Hin]. pose proof (zmax_nth (fun x => fps (snd x)) bs i _ Hin) as Hm. cbn [snd] in Hm.
    eapply (seq_body n b _ own cur st m _ B (B - lps cs)); try eassumption; try lia.
    + apply guard_fit; [assumption|]. eapply subset_In; eassumption.
    + intros q' c v K1 K2 K3. apply Go; [exact K1 | lia].
  - rewrite lp1_predict in Hp. rewrite chk1_predict in Hc1. rewrite grd1_predict in Hg1. rewrite due1_predict in Hd1.
    apply andb_true_iff in Hc1 as [Hc1 Ha]. apply andb_true_iff in Hc1 as [Hc1 Hdd]. apply andb_true_iff in Hc1 as [_ Hcb].
    pose proof (zmax_pos fps bs) as Zp.
    cbn [rcost]. intros o Hr Hs. destruct o as [[|j]|]; [exfalso; destruct Hr as [Hr _]; specialize (Hr 0%nat eq_refl); lia | | cbn [rcost lpost]; lia].
    destruct (predicted _ _ _ _ _ Hdd Ha Hs) as (kj & Ej & Hj).
    destruct (nth_error bs j) as [b|] eqn:Eb.
    + pose proof (forallb_nth _ _ _ _ Hg1 Eb) as Hb. pose proof (forallb_nth _ _ _ _ Hcb Eb) as Hcb'. pose proof (forallb_nth _ _ _ _ Hd1 Eb) as Hdb. cbn beta in Hb, Hcb', Hdb.
      apply andb_true_iff in Hb as [Hb1 Hb2]. dues.
      pose proof (zmax_nth fps bs j _ Eb) as Hm.
      eapply (seq_body n b _ own cur st m _ B (B - lps cs)); try eassumption; try lia.
      * rewrite nth_error_app1 in Ej by (rewrite map_length; apply nth_error_Some; congruence). rewrite nth_error_map, Eb in Ej. injection Ej as <-.
        eapply guard_predicted; eassumption.
      * intros q' c v K1 K2 K3. apply Go; [exact K1 | lia].
    + apply Go; [exact Hq | lia].
  - rewrite lp1_whilep in Hp, Gs. rewrite chk1_whilep in Hc1. rewrite grd1_whilep in Hg1. rewrite due1_whilep in Hd1. apply andb_true_iff in Hc1 as [Hc1 Ha]. bools. dues.
    match goal with H : guard b = true |- _ => rename H into Hb end. pose proof (fps_pos b). pose proof (lps_pos t).
    cbn [rcost]. intros o Hr Hs. destruct o as [[|j]|]; [exfalso; destruct Hr as [Hr _]; specialize (Hr 0%nat eq_refl); lia | | cbn [rcost lpost]; lia].
    destruct (predicted own d _ _ _ ltac:(assumption) Ha Hs) as (kj & Ej & Hj). destruct j as [|[|j]].
    + cbn [nth_error] in Ej. injection Ej as <-. eapply (seq_body n b _ own cur st m _ B (B - lps cs)); try eassumption; try lia; [eapply guard_predicted; eassumption|].
      intros q' c v K1 K2 K3. eapply (seq_lost n t _ own c st v _ B (B - lps cs - 1 - fps b)); try eassumption; try lia.
      intros q2 c2 u K4 K5 K6. apply Gs; [exact K4 | lia].
    + apply Go; [exact Hq | lia].
    + cbn [nth_error] in Ej. destruct j; discriminate.
  - assert (Hg1' := Hg1). rewrite lp1_dop in Hp. rewrite chk1_dop in Hc1. rewrite grd1_dop in Hg1. rewrite due1_dop in Hd1. apply andb_true_iff in Hc1 as [Hc1 Ha]. bools. dues.
    match goal with H : guard b = true |- _ => rename H into Hb end. match goal with H : decides own d = true |- _ => rename H into Hdd end.
    pose proof (fps_pos b). pose proof (lps_pos t).
    eapply (seq_lost n b _ own cur st m _ B (B - lps cs - fps b - 1 - lps t)); try eassumption; try lia.
    intros q' c v K1 K2 K3. eapply (seq_lost n t _ own c st v _ B (B - lps cs - fps b - 1)); try eassumption; try lia.
    intros q2 c2 u K4 K5 K6. cbn [rcost]. intros o Hr Hs. destruct o as [[|[|[|i]]]|]; try (cbn [rcost lpost]; lia); try (apply Go; [exact K4 | lia]).
    destruct (predicted own d _ _ _ Hdd Ha Hs) as (kj & Ej & Hj). cbn [nth_error] in Ej. injection Ej as <-.
    pose proof (guard_predicted _ _ _ Hb Hj) as Hfb. eapply HA2; try eassumption. lia.
Qed.

Lemma again_step n : paid_lost n -> paid_fit n -> paid_again n -> paid_again (S n).
Proof.
  intros HL HF [HA1 HA2]. split.
  - intros own cd b cs oc k cur st m Hc0 Hg0 Hd0 Hq Hf B q Hp. cbn [rrun].
    assert (Hc := Hc0). rewrite chk_cons in Hc. apply andb_true_iff in Hc as [Hc1 Hc].
    assert (Hg := Hg0). rewrite grds_cons in Hg. apply andb_true_iff in Hg as [Hg1 Hg]. apply andb_true_iff in Hg1 as [_ Hg1].
    assert (Hd := Hd0). rewrite dues_cons in Hd. apply andb_true_iff in Hd as [Hd1 Hd]. pose proof (lps_pos cs) as Pl. pose proof (fps_pos b).
    rewrite chk1_do in Hc1. rewrite grd1_do in Hg1. rewrite due1_do in Hd1. bools. dues.
    match goal with H : cond_ok cd = true |- _ => rename H into Hok end. match goal with H : subset (cond_set cd) _ = true |- _ => rename H into Hsub end.
    match goal with H : guard b = true |- _ => rename H into Hb end.
    eapply (seq_body n b _ own cur st m _ B (B - lps cs)); try eassumption; try lia.
    intros q' c v K1 K2 K3. rewrite (eval_spec cd (la (ws v)) Hok). destruct (memb (la (ws v)) (cond_set cd)) eqn:E.
    + apply memb_In in E. eapply HA1; try eassumption; [|lia]. apply guard_fit; [exact Hb | eapply subset_In; eassumption].
    + eapply HL; try eassumption. lia.
  - intros own d b t cs oc k cur st m Hc0 Hg0 Hd0 Hq Hf B q Hp. cbn [rrun].
    assert (Hc := Hc0). rewrite chk_cons in Hc. apply andb_true_iff in Hc as [Hc1 Hc].
    assert (Hg := Hg0). rewrite grds_cons in Hg. apply andb_true_iff in Hg as [Hg1 Hg]. apply andb_true_iff in Hg1 as [_ Hg1].
    assert (Hd := Hd0). rewrite dues_cons in Hd. apply andb_true_iff in Hd as [Hd1 Hd]. pose proof (lps_pos cs) as Pl. pose proof (fps_pos b). pose proof (lps_pos t).
    rewrite chk1_dop in Hc1. rewrite grd1_dop in Hg1. rewrite due1_dop in Hd1. apply andb_true_iff in Hc1 as [Hc1 Ha]. bools. dues.
    match goal with H : guard b = true |- _ => rename H into Hb end. match goal with H : decides own d = true |- _ => rename H into Hdd end.
    eapply (seq_body n b _ own cur st m _ B (B - lps cs)); try eassumption; try lia.
    intros q' c v K1 K2 K3. eapply (seq_lost n t _ own c st v _ B (B - lps cs - fps b - 1)); try eassumption; try lia.
    intros q2 c2 u K4 K5 K6. cbn [rcost]. intros o Hr Hs. destruct o as [[|[|[|i]]]|]; try (cbn [rcost lpost]; lia); try (eapply HL; try eassumption; lia).
    destruct (predicted own d _ _ _ Hdd Ha Hs) as (kj & Ej & Hj). cbn [nth_error] in Ej. injection Ej as <-.
    pose proof (guard_predicted _ _ _ Hb Hj) as Hfb. eapply HA2; try eassumption. lia.
Qed.

Lemma fit_step n : paid_lost n -> paid_fit n -> paid_fit (S n).
Proof.
  intros HL HF own cs oc k cur st m Hc0 Hg0 Hd0 Hq Ho0 Hf B q Hp. cbn [rrun].
  destruct cs as [|s cs]; [exfalso; pose proof (fit_null _ _ Hf) as E; discriminate E|].
  assert (Hc := Hc0). rewrite chk_cons in Hc. apply andb_true_iff in Hc as [Hc1 Hc].
  assert (Hg := Hg0). rewrite grds_cons in Hg. apply andb_true_iff in Hg as [Hg1 Hg]. apply andb_true_iff in Hg1 as [_ Hg1].
  assert (Hd := Hd0). rewrite dues_cons in Hd. apply andb_true_iff in Hd as [Hd1 Hd].
  assert (Ho := Ho0). rewrite goks_cons in Ho. apply andb_true_iff in Ho as [Ho1 Ho].
  rewrite fps_cons in Hp. pose proof (lps_pos cs) as Pl. pose proof (fps_pos cs) as Pf.
  set (F := fcs (s :: cs)) in *. assert (HF1 : F <= fc1 over_table s - lps cs) by (unfold F; rewrite fcs_cons; lia).
  assert (HF2 : nul s = true -> F <= fcs cs) by (unfold F; rewrite fcs_cons; intros ->; lia).
  assert (Hp' : q + worth m + fp1 fit_table s <= B) by (destruct (nul s); lia).
  (* after progress *)
  assert (Past : forall cs0 oc0 k0 q' c v, chk own cs0 oc0 k0 = true -> grds cs0 = true -> dues cs0 = true -> ok_state c -> (phi v < phi m)%nat ->
    q' + worth v + lps cs0 + F <= B -> rcost (fpost m F B) q' (rrun n cs0 c st v)).
  { intros cs0 oc0 k0 q' c v H1 H2 H3 H4 H5 H6.
    eapply rcost_mono; [|apply rcost_and; [apply (HL own cs0 oc0 k0 c st v H1 H2 H3 H4 (B - F) q'); lia | apply (rrun_near n cs0 c st v H2 H4)]].
    intros q2 [f c2 u|c2 u|]; cbn [lpost fpost nearby]; [intros [K1 _]; lia | | auto]. intros [K1 [_ K2]]. left. split; [eapply near_lt; eassumption | lia]. }
  assert (Rest : forall q' c v, ok_state c -> (phi v < phi m)%nat -> q' + worth v + fc1 over_table s <= B -> rcost (fpost m F B) q' (rrun n cs c st v)).
  { intros q' c v H1 H2 H3. eapply Past; [exact Hc | exact Hg | exact Hd | exact H1 | exact H2 | lia]. }
  assert (Loop : forall q' c v, ok_state c -> (phi v < phi m)%nat -> q' + worth v + lp1 lost_price_table s + fc1 over_table s <= B -> rcost (fpost m F B) q' (rrun n (s :: cs) c st v)).
  { intros q' c v H1 H2 H3. eapply Past; [exact Hc0 | exact Hg0 | exact Hd0 | exact H1 | exact H2 | rewrite lps_cons; lia]. }
  (* without progress *)
  assert (Stay : forall q' c v, nul s = true -> fit cs (la (ws m)) -> ok_state c -> near v m -> fc1 over_table s <= unit_price ->
    q' <= q + fp1 fit_table s -> rcost (fpost m F B) q' (rrun n cs c st v)).
  { intros q' c v H0 H1 H2 [H3|[H3 H4]] H5 H6.
    - apply Rest; [exact H2 | exact H3|]. pose proof (worth_less _ _ H3). lia.
    - rewrite H0 in Ho, Hp. specialize (HF2 H0). assert (Hw := worth_same _ _ H4).
      eapply rcost_mono; [|apply (HF own cs _ k c st v Hc Hg Hd H2 Ho ltac:(rewrite H3; exact H1) B q'); lia].
      intros q2 [f c2 u|c2 u|]; cbn [fpost]; [lia | rewrite H4 | auto]. intros [[K1 K2]|K]; [left; split; [exact K1 | lia] | right; exact K]. }
  assert (Body : forall b kb kk q' X, chk own b None kb = true -> grds b = true -> dues b = true -> guard b = true -> fit b (la (ws m)) -> F <= fcs b ->
     q' + worth m + fps b <= B -> X = fcs b ->
     (forall q2 c v, ok_state c -> (phi v < phi m)%nat -> q2 + worth v + X <= B -> rcost (fpost m F B) q2 (kk c v)) -> rcost (fpost m F B) q' (rthen (rrun n b cur st m) kk)).
  { intros b kb kk q' X H1 H2 H3 H4 H5 H6 H7 -> H8. pose proof (guard_goks _ H4) as Hk.
    eapply rcost_then; [apply treeless_fpost | apply rcost_and; [apply (HF own b None kb cur st m H1 H2 H3 Hq Hk H5 B q' H7) | apply (rrun_gained n own b None kb cur st m H1 H2 Hk Hq H5)] | | |].
    - intros q2 f c v [K1 [K2 K3]]. apply H8; assumption.
    - intros q2 c v [[[K1 K2]|K] _]; [left; split; [exact K1 | lia] | right; exact K].
    - intros q2 _. exact I. }
  assert (Tail : forall t kt kk q' c v X, chk own t None kt = true -> grds t = true -> dues t = true -> ok_state c -> (phi v < phi m)%nat ->
     q' + worth v + lps t + X <= B -> F <= X ->
     (forall q2 c v, ok_state c -> (phi v < phi m)%nat -> q2 + worth v + X <= B -> rcost (fpost m F B) q2 (kk c v)) -> rcost (fpost m F B) q' (rthen (rrun n t c st v) kk)).
  { intros t kt kk q' c v X H1 H2 H3 H4 H5 H6 H7 H8.
    eapply rcost_then; [apply treeless_fpost | apply rcost_and; [apply (HL own t None kt c st v H1 H2 H3 H4 (B - X) q'); lia | apply (rrun_near n t c st v H2 H4)] | | |].
    - intros q2 f c2 u [K1 [K2 K3]]. cbn [lpost] in K1. apply H8; [exact K2 | eapply near_lt; eassumption | lia].
    - intros q2 c2 u [K1 [K2 K3]]. cbn [lpost] in K1. left. split; [eapply near_lt; eassumption | lia].
    - intros q2 _. exact I. }
  assert (Tk : forall x w, ws m = x :: w -> fc1 over_table s <= unit_price -> 0 <= fp1 fit_table s -> rcost (fpost m F B) q (rthen (REnd (RDone [Leaf x] cur (matched (put m w)))) (fun c v => rrun n cs c st v))).
  { intros x w E Es Ep. eapply (rcost_then _ (fun q' o => q' = q /\ o = RDone [Leaf x] cur (matched (put m w)))); [apply treeless_fpost | cbn; auto | | | ].
    - intros q' f c v [-> [= -> -> ->]]. pose proof (match_less m x w E) as L. apply Rest; [exact Hq | exact L|]. apply worth_less in L. lia.
    - intros q' c v [_ [=]].
    - intros q' [_ [=]]. }
  destruct s as [a| |t|cd|r|cd b|cd b|cd b|bs|d bs|d b t|d b t].
  - apply Stay; [reflexivity | | apply N.ltb_lt in Hg1; exact Hg1 | apply near_refl | cbn; lia | cbn; lia]. eapply fit_skip; [exact Hf | intros g []].
  - assert (Hf' : fit cs (la (ws m))) by (eapply fit_skip; [exact Hf | intros g []]). cbn [fp1] in Hp', Stay. assert (Es : fc1 over_table SSync <= unit_price) by (cbn; lia).
    destruct (mode m); [apply Stay; auto using near_refl; lia|]. cbn [rcost]. intros r Hr. destruct r as [| |i|]; cbn [rcost].
    + apply Stay; auto using near_refl; lia.
    + assert (L : (phi (matched (eat (report m))) < phi m)%nat) by (apply delete_less; apply Hr; reflexivity). apply Rest; [exact Hq | exact L|]. apply worth_less in L. lia.
    + apply Stay; [reflexivity | exact Hf' | exact Hq | | exact Es | lia]. eapply near_trans; [apply near_skip | apply near_report].
    + right. split; [reflexivity | lia].
  - pose proof (fit_nul _ _ _ Hf eq_refl) as Ht. cbn [gx1 Tok firstk] in Ht. destruct Ht as [Ht|[]].
    pose proof (fit_eof _ _ Hf) as He. destruct (ws m) as [|x w] eqn:E; [exfalso; apply He; reflexivity|]. cbn [la] in *. subst t. rewrite N.eqb_refl.
    apply Tk; [reflexivity | cbn; lia | cbn; lia].
  - pose proof (fit_nul _ _ _ Hf eq_refl) as Ht. cbn [gx1 firstk] in Ht.
    pose proof (fit_eof _ _ Hf) as He. destruct (ws m) as [|x w] eqn:E; [exfalso; apply He; reflexivity|]. cbn [la] in *.
    cbn [chk1] in Hc1. rewrite (eval_spec _ _ Hc1). replace (memb (tt x) (cond_set cd)) with true by (symmetry; apply memb_In; exact Ht).
    apply Tk; [reflexivity | cbn; lia | cbn; lia].
  - cbn [gok1] in Ho1. apply negb_true_iff in Ho1. assert (Hn : nul (SCall r) = false) by (unfold nul; cbn [gx1 forallb]; rewrite Ho1; reflexivity).
    pose proof (fit_nul _ _ _ Hf Hn) as Ht. cbn [gx1] in Ht. apply firstk_cons in Ht as [Ht|[_ []]].
    pose proof (fit_eof _ _ Hf) as He. destruct (code_grds r) as (K1 & K2 & K3). destruct (code_dues r) as (D1 & _ & D2 & D3 & _). pose proof (call_fit r _ Ht Ho1 He) as Hcf.
    cbn [fp1 fc1] in *.
    eapply (rcost_then _ (fun q' o => match o with RDone _ c v => ok_state c /\ (phi v < phi m)%nat /\ q' + worth v + (Z.min (look 0 over_table r) unit_price - 1) <= B | RRaise _ _ => False | RFuel => True end)); [apply treeless_fpost | | | | ].
    + eapply rcost_bind; [apply rcost_and; [apply (HF r (code r) None [] (enter_state r) (cur :: st) m (code_chk r) K1 D1 K3 K2 Hcf B q); lia
        | apply (rrun_gained n r (code r) None [] (enter_state r) (cur :: st) m (code_chk r) K1 K2 K3 Hcf)]|].
      intros q' [f c v|c v|]; cbn [catch rcost fpost gained]; [intros [K4 [K5 K6]]; split; [exact Hq | split; [exact K6 | lia]] | | auto].
      intros [K4 [K5 K6]] i. split; [exact Hq|]. pose proof (recover_near c i (report v) K5) as [N1 N2]. rewrite ws_report in N2. pose proof (near_trans _ _ _ N1 (near_report v)) as N3.
      pose proof (worth_near _ _ N3) as W3. destruct K4 as [[K4 K7]|[K4 K7]].
      * split; [eapply near_lt; eassumption | lia].
      * destruct K6 as [K6|[K6 _]]; [exfalso; lia|]. rewrite K6 in N2. specialize (N2 He). pose proof (near_report v) as NR.
        assert (phi (report v) = phi v) as Ep by (unfold report; destruct (mode v); reflexivity). assert (L : (phi (recover c i (report v)) < phi v)%nat) by lia.
        split; [lia|]. apply worth_less in L. lia.
    + intros q' f c v (K4 & K5 & K6). apply Rest; [exact K4 | exact K5 | lia].
    + intros q' c v [].
    + intros q' _. exact I.
  - rewrite fp1_if in *. rewrite fc1_if in *. rewrite chk1_if in Hc1. rewrite grd1_if in Hg1. rewrite due1_if in Hd1. bools. dues. rewrite (eval_spec cd (la (ws m)) ltac:(assumption)).
    destruct (memb (la (ws m)) (cond_set cd)) eqn:E.
    + apply memb_In in E. eapply Body; [eassumption | assumption | assumption | assumption | | lia | lia | reflexivity | intros; apply Rest; assumption]. apply guard_fit; [assumption|]. eapply subset_In; eassumption.
    + apply Stay; [| |exact Hq | apply near_refl | apply fcs_max | pose proof (fps_pos b); lia].
      * unfold nul. rewrite gx1_if. unfold Opt, nullable. cbn [forallb nullable_t]. rewrite orb_true_r. reflexivity.
      * eapply fit_skip; [exact Hf|]. rewrite gx1_if. intros g [<-|[]] Hi. unfold Opt, first in Hi. cbn [first_t] in Hi. apply union_In in Hi as [Hi|[]].
        assert (memb (la (ws m)) (cond_set cd) = true) by (apply memb_In; eapply subset_In; [|exact Hi]; eassumption). congruence.
  - pose proof (lp1_pos (SWhileLa cd b)) as Lp. rewrite fp1_while in *. rewrite fc1_while in *. rewrite chk1_while in Hc1. rewrite grd1_while in Hg1. rewrite due1_while in Hd1. bools. dues. rewrite (eval_spec cd (la (ws m)) ltac:(assumption)).
    destruct (memb (la (ws m)) (cond_set cd)) eqn:E.
    + apply memb_In in E. eapply Body; [eassumption | assumption | assumption | assumption | | lia | lia | reflexivity | intros q2 c v H1' H2' H3'; apply Loop; [exact H1' | exact H2' | lia]]. apply guard_fit; [assumption|]. eapply subset_In; eassumption.
    + apply Stay; [reflexivity | |exact Hq | apply near_refl | pose proof (fcs_max b); lia | pose proof (fps_pos b); lia].
      eapply fit_skip; [exact Hf|]. rewrite gx1_while. intros g [<-|[]] Hi.
      assert (memb (la (ws m)) (cond_set cd) = true) by (apply memb_In; eapply subset_In; [|exact Hi]; eassumption). congruence.
  - pose proof (lp1_pos (SDoLa cd b)) as Lp. rewrite fp1_do in *. rewrite fc1_do in *. rewrite chk1_do in Hc1. rewrite grd1_do in Hg1. rewrite due1_do in Hd1. bools. dues. match goal with H : guard b = true |- _ => rename H into Hb end.
    eapply Body; [eassumption | assumption | assumption | assumption | | lia | lia | reflexivity |].
    + apply guard_fit; [exact Hb|]. pose proof (guard_null _ Hb) as Nb. rewrite <- nullable_seqs in Nb. change (seqs (gxl b)) with (gx b) in Nb.
      assert (Hn : nul (SDoLa cd b) = false). { unfold nul. rewrite gx1_do. cbn [forallb]. unfold Plus. rewrite nullable_seq, Nb. reflexivity. }
      pose proof (fit_nul _ _ _ Hf Hn) as Ht. rewrite gx1_do in Ht. apply firstk_cons in Ht as [Ht|[_ []]]. unfold Plus in Ht. rewrite first_seq, Nb in Ht. exact Ht.
    + intros q2 c v H1' H2' H3'. destruct (eval cd (la (ws v))); [apply Loop | apply Rest]; try assumption; lia.
  - rewrite fp1_switch in *. rewrite fc1_switch in *. rewrite chk1_switch in Hc1. rewrite grd1_switch in Hg1. rewrite due1_switch in Hd1.
    pose proof (zmax_pos (fun x : list ttype * list stmt => fps (snd x)) bs) as Zp.
    destruct (pick_case (la (ws m)) bs) as [b|] eqn:P; [|right; split; [reflexivity | lia]].
    apply pick_label in P as (ts' & Hin & Hla).
    apply andb_true_iff in Hc1 as [Hc1 _]. apply andb_true_iff in Hc1 as [_ Hc1].
    rewrite forallb_forall in Hc1, Hg1, Hd1. specialize (Hc1 _ Hin). specialize (Hg1 _ Hin). specialize (Hd1 _ Hin). cbn [fst snd] in *. bools. dues.
    apply In_nth_error in Hin as [i Hin]. pose proof (zmax_nth (fun x => fps (snd x)) bs i _ Hin) as Hm. pose proof (zmin_nth (fun x => fcs (snd x)) unit_price bs i _ Hin) as Hm2. cbn [snd] in Hm, Hm2.
    eapply Body; [eassumption | assumption | assumption | assumption | | lia | lia | reflexivity | intros q2 c v H1' H2' H3'; apply Rest; [exact H1' | exact H2' | lia]]. apply guard_fit; [assumption|]. eapply subset_In; eassumption.
  - rewrite fp1_predict in *. rewrite fc1_predict in *. rewrite chk1_predict in Hc1. rewrite grd1_predict in Hg1. rewrite due1_predict in Hd1.
    apply andb_true_iff in Hc1 as [Hc1 Ha]. apply andb_true_iff in Hc1 as [Hc1 Hdd]. apply andb_true_iff in Hc1 as [_ Hcb].
    pose proof (zmax_pos fps bs) as Zp.
    cbn [rcost]. intros o Hr Hs. destruct o as [[|j]|]; [exfalso; destruct Hr as [Hr _]; specialize (Hr 0%nat eq_refl); lia | | right; split; [reflexivity | lia]].
    destruct (predicted _ _ _ _ _ Hdd Ha Hs) as (kj & Ej & Hj).
    destruct (nth_error bs j) as [b|] eqn:Eb.
    + pose proof (forallb_nth _ _ _ _ Hg1 Eb) as Hb. pose proof (forallb_nth _ _ _ _ Hcb Eb) as Hcb'. pose proof (forallb_nth _ _ _ _ Hd1 Eb) as Hdb. cbn beta in Hb, Hcb', Hdb.
      apply andb_true_iff in Hb as [Hb1 Hb2]. dues.
      pose proof (zmax_nth fps bs j _ Eb) as Hm. pose proof (zmin_nth fcs unit_price bs j _ Eb) as Hm2.
      eapply Body; [exact Hcb' | exact Hb2 | assumption | exact Hb1 | | lia | lia | reflexivity | intros q2 c v H1' H2' H3'; apply Rest; [exact H1' | exact H2' | lia]].
      rewrite nth_error_app1 in Ej by (rewrite map_length; apply nth_error_Some; congruence). rewrite nth_error_map, Eb in Ej. injection Ej as <-.
      eapply guard_predicted; eassumption.
    + rewrite nth_error_app2 in Ej by (rewrite map_length; apply nth_error_None; exact Eb). rewrite map_length in Ej.
      destruct (Nat.eqb (length bs) (length (alternatives d))) eqn:El; [destruct (j - length bs)%nat; discriminate|].
      assert (kj = gxl cs ++ k) as -> by (destruct (j - length bs)%nat as [|[|]]; cbn in Ej; congruence).
      assert (Hn : nul (SPredict d bs) = true). { unfold nul. rewrite gx1_predict, El. unfold Opt, nullable. cbn [forallb nullable_t]. rewrite orb_true_r. reflexivity. }
      apply Stay; [exact Hn | eapply fit_exit; eassumption | exact Hq | apply near_refl | apply zmin_le | lia].
  - pose proof (lp1_pos (SWhilePredict d b t)) as Lp. rewrite fp1_whilep in *. rewrite fc1_whilep in *. rewrite chk1_whilep in Hc1. rewrite grd1_whilep in Hg1. rewrite due1_whilep in Hd1.
    apply andb_true_iff in Hc1 as [Hc1 Ha]. bools. dues. match goal with H : guard b = true |- _ => rename H into Hb end. pose proof (fps_pos b). pose proof (lps_pos t).
    cbn [rcost]. intros o Hr Hs. destruct o as [[|j]|]; [exfalso; destruct Hr as [Hr _]; specialize (Hr 0%nat eq_refl); lia | | right; split; [reflexivity | lia]].
    destruct (predicted own d _ _ _ ltac:(assumption) Ha Hs) as (kj & Ej & Hj). destruct j as [|[|j]].
    + cbn [nth_error] in Ej. injection Ej as <-. eapply Body; [eassumption | assumption | assumption | assumption | eapply guard_predicted; eassumption | lia | lia | reflexivity |].
      intros q2 c v H1' H2' H3'. eapply (Tail t _ _ q2 c v (fcs b - lps t)); [eassumption | assumption | assumption | exact H1' | exact H2' | lia | lia |].
      intros q3 c2 u H4' H5' H6'. apply Loop; [exact H4' | exact H5' | lia].
    + cbn [nth_error] in Ej. injection Ej as <-. apply Stay; [reflexivity | eapply fit_exit; [exact Hf | reflexivity | exact Hj] | exact Hq | apply near_refl | pose proof (fcs_max b); lia | lia].
    + destruct j; discriminate.
  - pose proof (lp1_pos (SDoPredict d b t)) as Lp. rewrite fp1_dop in *. rewrite fc1_dop in *. rewrite chk1_dop in Hc1. rewrite grd1_dop in Hg1. rewrite due1_dop in Hd1.
    apply andb_true_iff in Hc1 as [Hc1 Ha]. bools. dues. match goal with H : guard b = true |- _ => rename H into Hb end. pose proof (lps_pos t).
    eapply Body; [eassumption | assumption | assumption | assumption | | lia | lia | reflexivity |].
    + apply guard_fit; [exact Hb|]. pose proof (guard_null _ Hb) as Nb. rewrite <- nullable_seqs in Nb. change (seqs (gxl b)) with (gx b) in Nb.
      assert (Hn : nul (SDoPredict d b t) = false). { unfold nul. rewrite gx1_dop. cbn [forallb]. unfold Plus. rewrite nullable_seq, Nb. reflexivity. }
      pose proof (fit_nul _ _ _ Hf Hn) as Ht. rewrite gx1_dop in Ht. apply firstk_cons in Ht as [Ht|[_ []]]. unfold Plus in Ht. rewrite first_seq, Nb in Ht. exact Ht.
    + intros q2 c v H1' H2' H3'. eapply (Tail t _ _ q2 c v (fcs b - lps t)); [eassumption | assumption | assumption | exact H1' | exact H2' | lia | lia |].
      intros q3 c2 u H4' H5' H6'. cbn [rcost]. intros o _ _. destruct o as [[|[|[|i]]]|];
        try (apply Loop; [exact H4' | exact H5' | lia]); try (apply Rest; [exact H4' | exact H5' | lia]); (left; split; [exact H5' | lia]).
Qed.

Lemma runs_paid n : paid_lost n /\ paid_fit n /\ paid_again n.
Proof.
  induction n as [|n (IH1 & IH2 & IH3)].
  - split; [|split; [|split]]; hnf; intros; exact I.
  - split; [apply lost_step; assumption | split; [apply fit_step; assumption | apply again_step; assumption]].
Qed.

(** The calls of the exported functions. *)
Lemma start_lost r : r = R_addressList \/ r = R_dateTime -> lps (code r) <= 499.
Proof. intros [-> | ->]; vm_compute; discriminate. Qed.

Transparent NS.
Lemma fresh_worth w : worth (fresh_mem w) = 600500 * Z.of_nat (length w) + 600000.
Proof.
  unfold worth, phi, fresh_mem, room. cbn [ws lix]. assert (E : Z.of_nat NS = 1200) by reflexivity. generalize dependent NS. intros N E.
  rewrite Nat2Z.inj_add, Nat2Z.inj_mul, Nat2Z.inj_succ. nia.
Qed.
Opaque NS.

(** The most requests that the parser makes of the runtime on [n] tokens, errors or not. *)
Definition most_requests (n : nat) : Z := 600500 * (Z.of_nat n + 1).

(** The count of a run that ends. *)
Lemma rstart_paid n r w : r = R_addressList \/ r = R_dateTime ->
  rcost (fun q o => match o with RFuel => True | _ => q <= most_requests (length w) end) 0 (rstart n r w).
Proof.
  intros Hr. unfold rstart, most_requests. destruct (code_grds r) as (K1 & K2 & K3). destruct (code_dues r) as (D1 & _).
  pose proof (start_lost r Hr) as L. pose proof (fresh_worth w) as W. destruct (runs_paid n) as [HL _].
  set (B := 600500 * Z.of_nat (length w) + 600499).
  eapply rcost_bind; [apply (HL r (code r) None [] (enter_state r) [] (fresh_mem w) (code_chk r) K1 D1 K3 B); unfold B; lia|].
  intros q [f c m|c m|]; cbn [lpost catch rcost]; [| |auto].
  - intros H. assert (0 <= worth m) by (unfold worth; lia). unfold B in H. lia.
  - intros H i. assert (0 <= worth m) by (unfold worth; lia). unfold B in H. lia.
Qed.
