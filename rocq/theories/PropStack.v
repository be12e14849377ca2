(** C74, continued: the nesting of calls in any run of the generated functions, also after syntax errors. *)
From Coq Require Import String List NArith ZArith Bool Arith Lia.
From Verif Require Import Lexer Grammar Utf8 Strs Mime GoTime Parser Spec ParserFacts Static LexFacts Walker Api GenSyntax GenCode GenRun GenLex GenRecover PropGen PropRecover PropDepth.
Import ListNotations.

(** ** Specification *)
(** The run of GenRecover.v ([rrun]) on a stack for [d] calls of rule functions: a call for which there is no room
    ends the run.  Everything else is as there. *)
(* /repo: parser/rfc5322_parser.go:872-14929, as GenRecover.rrun *)
Fixpoint srun (d n : nat) (cs : list stmt) (cur : N) (st : list N) (m : mem) : rprog :=
  match n with
  | O => REnd RFuel
  | S n' =>
      let go := srun d n' in
      match cs with
      | [] => REnd (RDone [] cur m)
      | s :: cs' =>
          match s with
          | SState q => go cs' q st m
          | SSync =>
              if mode m then go cs' cur st m else
              RSync cur (la (ws m)) (fun r => match r with
                | SyncOk => go cs' cur st m
                | SyncDelete => go cs' cur st (matched (eat (report m)))
                | SyncSkip k => go cs' cur st (skip k (report m))
                | SyncThrow => REnd (RRaise cur m)
                end)
          | SMatch t =>
              match ws m with
              | x :: w' => if N.eqb (tt x) t then rthen (REnd (RDone [Leaf x] cur (matched (put m w')))) (fun c v => go cs' c st v)
                           else inline cur m (fun m' => go cs' cur st m')
              | [] => inline cur m (fun m' => go cs' cur st m')
              end
          | SMatchSet c =>
              match ws m with
              | x :: w' => if eval c (tt x) then rthen (REnd (RDone [Leaf x] cur (matched (put m w')))) (fun c v => go cs' c st v)
                           else inline cur m (fun m' => go cs' cur st m')
              | [] => inline cur m (fun m' => go cs' cur st m')
              end
          | SCall r =>
              match d with
              | O => REnd RFuel
              | S d' => rthen (rbind (srun d' n' (code r) (enter_state r) (cur :: st) m) (catch r cur)) (fun c v => go cs' c st v)
              end
          | SIfLa c b =>
              if eval c (la (ws m)) then rthen (go b cur st m) (fun c1 v => go cs' c1 st v) else go cs' cur st m
          | SWhileLa c b =>
              if eval c (la (ws m)) then rthen (go b cur st m) (fun c1 v => go (s :: cs') c1 st v) else go cs' cur st m
          | SDoLa c b =>
              rthen (go b cur st m) (fun c1 v => if eval c (la (ws v)) then go (s :: cs') c1 st v else go cs' c1 st v)
          | SSwitchLa bs =>
              match pick_case (la (ws m)) bs with
              | Some b => rthen (go b cur st m) (fun c1 v => go cs' c1 st v)
              | None => REnd (RRaise cur m)
              end
          | SPredict d0 bs =>
              RAsk d0 st (ws m) (fun o =>
                match o with
                | Some (S j) =>
                    match nth_error bs j with
                    | Some b => rthen (go b cur st m) (fun c1 v => go cs' c1 st v)
                    | None => go cs' cur st m
                    end
                | Some O => go cs' cur st m
                | None => REnd (RRaise cur m)
                end)
          | SWhilePredict d0 b t =>
              RAsk d0 st (ws m) (fun o =>
                match o with
                | Some 1 => rthen (go b cur st m) (fun c1 v => rthen (go t c1 st v) (fun c2 u => go (s :: cs') c2 st u))
                | Some 0 | Some 2 => go cs' cur st m
                | Some _ => rthen (go t cur st m) (fun c2 u => go (s :: cs') c2 st u)
                | None => REnd (RRaise cur m)
                end)
          | SDoPredict d0 b t =>
              rthen (go b cur st m) (fun c1 v => rthen (go t c1 st v) (fun c2 u =>
                RAsk d0 st (ws u) (fun o =>
                  match o with
                  | Some 1 => go (s :: cs') c2 st u
                  | Some 0 | Some 2 => go cs' c2 st u
                  | Some _ => REnd (RRaise c2 u)
                  | None => REnd (RRaise c2 u)
                  end)))
          end
      end
  end.

(** The call of a start rule, for which there is room. *)
(* /repo: parser.go:32, parser.go:55 *)
Definition sstart (d n : nat) (r : rule) (w : word) : rprog :=
  rbind (srun (pred d) n (code r) (enter_state r) [] (fresh_mem w)) (catch r (enter_state r)).

(** Two programs that ask the same questions and end alike whatever the replies are. *)
(* /repo: specification *)
Fixpoint alike (p q : rprog) {struct p} : Prop :=
  match p, q with
  | REnd o, REnd o' => o = o'
  | RAsk d st w k, RAsk d' st' w' k' => d = d' /\ st = st' /\ w = w' /\ forall o, alike (k o) (k' o)
  | RSync n t k, RSync n' t' k' => n = n' /\ t = t' /\ forall r, alike (k r) (k' r)
  | RInline n t k, RInline n' t' k' => n = n' /\ t = t' /\ forall r, alike (k r) (k' r)
  | RSkip n t k, RSkip n' t' k' => n = n' /\ t = t' /\ forall i, alike (k i) (k' i)
  | _, _ => False
  end.

(** ** Proofs *)
(** Opening parentheses left after an outcome. *)
Definition leaves (b : nat) (o : routcome) : Prop :=
  match o with RDone _ _ m | RRaise _ m => opens (ws m) <= b | RFuel => True end.
Fixpoint alike_to (b : nat) (p q : rprog) {struct p} : Prop :=
  match p, q with
  | REnd o, REnd o' => o = o' /\ leaves b o
  | RAsk d st w k, RAsk d' st' w' k' => d = d' /\ st = st' /\ w = w' /\ forall o, alike_to b (k o) (k' o)
  | RSync n t k, RSync n' t' k' => n = n' /\ t = t' /\ forall r, alike_to b (k r) (k' r)
  | RInline n t k, RInline n' t' k' => n = n' /\ t = t' /\ forall r, alike_to b (k r) (k' r)
  | RSkip n t k, RSkip n' t' k' => n = n' /\ t = t' /\ forall i, alike_to b (k i) (k' i)
  | _, _ => False
  end.
Lemma alike_to_alike b p : forall q, alike_to b p q -> alike p q.
Proof. induction p as [o|d st w k IH|n t k IH|n t k IH|n t k IH]; intros [o'|d' st' w' k'|n' t' k'|n' t' k'|n' t' k']; cbn [alike_to alike]; try tauto; intros H; intuition auto. Qed.
Lemma leaves_more b b' o : b <= b' -> leaves b o -> leaves b' o.
Proof. destruct o; cbn [leaves]; lia. Qed.
Lemma bind_alike b b' p : forall q f g, alike_to b p q -> (forall o, leaves b o -> alike_to b' (f o) (g o)) -> alike_to b' (rbind p f) (rbind q g).
Proof.
  induction p as [o|d st w k IH|n t k IH|n t k IH|n t k IH]; intros [o'|d' st' w' k'|n' t' k'|n' t' k'|n' t' k'] f g; cbn [alike_to rbind]; try tauto; intros H E.
  - destruct H as [<- L]. apply E, L.
  - intuition (auto; try apply IH; auto).
  - intuition (auto; try apply IH; auto).
  - intuition (auto; try apply IH; auto).
  - intuition (auto; try apply IH; auto).
Qed.
Lemma then_alike b b' p q k l : alike_to b p q -> b <= b' -> (forall c m, opens (ws m) <= b -> alike_to b' (k c m) (l c m)) -> alike_to b' (rthen p k) (rthen q l).
Proof.
  intros H L E. unfold rthen. eapply bind_alike; [exact H|]. intros [f c m|c m|] Lo; cbn [leaves] in Lo.
  - eapply bind_alike; [apply E, Lo|]. intros [f' c' m'|c' m'|] Lo'; cbn; auto.
  - cbn. split; [reflexivity | lia].
  - cbn. auto.
Qed.

Lemma opens_consume w : opens (consume w) <= opens w.
Proof. destruct w as [|x w]; [auto|]. cbn [consume]. destruct (N.eqb (tt x) T_EOF); [auto|]. unfold opens. cbn [filter]. destruct (is_open x); cbn [length]; lia. Qed.
Lemma opens_cons x w : opens w <= opens (x :: w).
Proof. unfold opens. cbn [filter]. destruct (is_open x); cbn [length]; lia. Qed.
Lemma opens_skip k : forall m, opens (ws (skip k m)) <= opens (ws m).
Proof. induction k as [|k IH]; intros m; [auto|]. cbn [skip]. eapply Nat.le_trans; [apply IH|]. apply opens_consume. Qed.
Lemma ws_report m : ws (report m) = ws m.
Proof. unfold report. destruct (mode m); reflexivity. Qed.
Lemma opens_recover c k m : opens (ws (recover c k m)) <= opens (ws m).
Proof.
  unfold recover. set (again := match lix m with Some i => Nat.eqb i (length (ws m)) && seen c (lst m) | None => false end). set (m1 := if again then eat m else m).
  assert (H : opens (ws m1) <= opens (ws m)) by (unfold m1; destruct again; [apply opens_consume | auto]).
  cbv zeta. eapply Nat.le_trans; [apply opens_skip|]. exact H.
Qed.

(** Calls that a statement may need, if the rules need what the table says: one for the rule itself, and what its
    statements need.  Where the code has looked at a '(' and calls Comment, that is two less than elsewhere. *)
Definition looked (x : list ttype * list stmt) : bool :=
  match x with
  | ([t], [SState _; SCall r]) => N.eqb t T_LParens && is_comment r
  | _ => false
  end.
Fixpoint nd1 (tbl : list nat) (s : stmt) : nat :=
  let nds := fix nds (l : list stmt) : nat := match l with [] => 0 | s :: l' => Nat.max (nd1 tbl s) (nds l') end in
  match s with
  | SState _ | SSync | SMatch _ | SMatchSet _ => 0
  | SCall r => look 0 tbl r
  | SIfLa _ b | SWhileLa _ b | SDoLa _ b => nds b
  | SWhilePredict _ b t | SDoPredict _ b t => Nat.max (nds b) (nds t)
  | SSwitchLa bs => fold_right (fun x m => Nat.max (if looked x then look 0 tbl R_comment - 2 else nds (snd x)) m) 0 bs
  | SPredict _ bs => fold_right (fun x m => Nat.max (nds x) m) 0 bs
  end.
Definition nds_t (tbl : list nat) : list stmt -> nat :=
  fix nds (l : list stmt) : nat := match l with [] => 0 | s :: l' => Nat.max (nd1 tbl s) (nds l') end.
Definition need_table : list nat := Eval vm_compute in iter 67 (fun t => map (fun r => S (nds_t t (code r))) all_rules) (map (fun _ => 0) all_rules).
Definition need (r : rule) : nat := look 0 need_table r.
Definition nds : list stmt -> nat := nds_t need_table.
Lemma need_code r : S (nds (code r)) <= need r.
Proof.
  assert (H : Nat.leb (S (nds (code r))) (need r) = true) by (revert r; apply all_rules_forall; vm_compute; reflexivity). apply Nat.leb_le. exact H.
Qed.
Lemma need_comment : exists tail, code R_comment = SState 200 :: SMatch T_LParens :: tail /\ S (nds tail) <= need R_comment.
Proof. eexists. split; [reflexivity|]. apply Nat.leb_le. vm_compute. reflexivity. Qed.
Lemma alike_more b b' p : forall q, b <= b' -> alike_to b p q -> alike_to b' p q.
Proof.
  induction p as [o|d st w k IH|n t k IH|n t k IH|n t k IH]; intros [o'|d' st' w' k'|n' t' k'|n' t' k'|n' t' k'] L; cbn [alike_to]; try tauto; intros H; intuition eauto using leaves_more.
Qed.
Lemma catch_alike b r cur o : leaves b o -> alike_to b (catch r cur o) (catch r cur o).
Proof.
  destruct o as [f c m|c m|]; cbn [leaves catch alike_to]; auto. intros L. split; [reflexivity|]. split; [reflexivity|]. intros i. split; [reflexivity|]. cbn [leaves].
  pose proof (opens_recover c i (report m)). rewrite ws_report in H. lia.
Qed.
Lemma inline_alike b cur m f g : opens (ws m) <= b -> (forall m', opens (ws m') <= b -> alike_to b (f m') (g m')) -> alike_to b (inline cur m f) (inline cur m g).
Proof.
  intros L E. unfold inline. cbn [alike_to]. split; [reflexivity|]. split; [reflexivity|]. intros [| |].
  - apply E. unfold eat, matched, put. cbn [ws]. pose proof (opens_consume (consume (ws (report m)))). pose proof (opens_consume (ws (report m))). rewrite ws_report in *. lia.
  - apply E. rewrite ws_report. exact L.
  - cbn. auto.
Qed.
Lemma nds_cons s l : nds (s :: l) = Nat.max (nd1 need_table s) (nds l).
Proof. reflexivity. Qed.
Lemma pick_need w : forall bs b, pick_case (la w) bs = Some b ->
  nds b <= nd1 need_table (SSwitchLa bs) \/ la w = T_LParens /\ need R_comment - 2 <= nd1 need_table (SSwitchLa bs) /\ exists q, b = [SState q; SCall R_comment].
Proof.
  intros bs b. change (nd1 need_table (SSwitchLa bs)) with (fold_right (fun x m => Nat.max (if looked x then need R_comment - 2 else nds (snd x)) m) 0 bs).
  induction bs as [|[ts b'] bs IH]; [discriminate|]. cbn [pick_case fold_right]. destruct (memb (la w) ts) eqn:M.
  - intros [= ->]. destruct (looked (ts, b)) eqn:E; [|left; cbn [snd]; lia]. right. unfold looked in E.
    destruct ts as [|t [|]]; try discriminate. destruct b as [|[q| | | | | | | | | | |] [|[| | | |r| | | | | | |] [|]]]; try discriminate. apply andb_true_iff in E as [E1 E2].
    apply N.eqb_eq in E1 as ->. apply memb_In in M as [M|[]]. destruct r; try discriminate E2. split; [symmetry; exact M|]. split; [lia|]. exists q. reflexivity.
  - intros H. specialize (IH H). destruct IH as [IH|(I1 & I2 & I3)]; [left; lia | right; split; [exact I1|]; split; [lia | exact I3]].
Qed.
Lemma nth_need bs : forall j b d0, nth_error bs j = Some b -> nds b <= nd1 need_table (SPredict d0 bs).
Proof.
  intros j b d0. change (nd1 need_table (SPredict d0 bs)) with (fold_right (fun x m => Nat.max (nds x) m) 0 bs). revert j.
  induction bs as [|x bs IH]; intros [|j] H; try discriminate; cbn [fold_right nth_error] in *; [injection H as ->; lia | specialize (IH j H); lia].
Qed.
Lemma opens_la w : la w = T_LParens -> exists x w', w = x :: w' /\ tt x = T_LParens /\ opens w = S (opens w').
Proof. destruct w as [|x w']; [discriminate|]. cbn [la]. intros E. exists x, w'. split; [reflexivity|]. split; [exact E|]. unfold opens. cbn [filter]. unfold is_open at 1. rewrite E, N.eqb_refl. reflexivity. Qed.

Lemma stack_enough : forall n cs d cur st m b, opens (ws m) <= b -> nds cs + 2 * b <= d -> alike_to b (srun d n cs cur st m) (rrun n cs cur st m).
Proof.
  induction n as [n IH] using (well_founded_induction lt_wf). intros cs d cur st m b Lb Ld. destruct n as [|n']; [cbn; auto|].
  assert (I1 : forall cs d cur st m b, opens (ws m) <= b -> nds cs + 2 * b <= d -> alike_to b (srun d n' cs cur st m) (rrun n' cs cur st m)) by (intros; apply IH; auto).
  destruct cs as [|s cs']; [cbn; auto|]. rewrite nds_cons in Ld. pose proof (fun c v (H : opens (ws v) <= b) => I1 cs' d c st v b H ltac:(lia)) as K.
  assert (K2 : forall c v, opens (ws v) <= b -> alike_to b (srun d n' (s :: cs') c st v) (rrun n' (s :: cs') c st v)) by (intros c v H; apply I1; [exact H | rewrite nds_cons; lia]).
  destruct s as [q| |t|c|r|c b0|c b0|c b0|bs|d0 bs|d0 b0 t|d0 b0 t]; cbn [srun rrun].
  - apply K, Lb.
  - destruct (mode m); [apply K, Lb|]. cbn [alike_to]. split; [reflexivity|]. split; [reflexivity|]. intros [| |k|].
    + apply K, Lb.
    + apply K. unfold eat, matched, put. cbn [ws]. pose proof (opens_consume (ws (report m))). rewrite ws_report in *. lia.
    + apply K. pose proof (opens_skip k (report m)). rewrite ws_report in *. lia.
    + cbn. auto.
  - destruct (ws m) as [|x w'] eqn:W; [apply inline_alike; [rewrite W; exact Lb | intros m' H; apply K, H]|].
    destruct (N.eqb (tt x) t); [|apply inline_alike; [rewrite W; exact Lb | intros m' H; apply K, H]].
    eapply then_alike; [|apply le_n | intros c v H; apply K, H]. cbn. split; [reflexivity|]. change (opens w' <= b). pose proof (opens_cons x w'). lia.
  - destruct (ws m) as [|x w'] eqn:W; [apply inline_alike; [rewrite W; exact Lb | intros m' H; apply K, H]|].
    destruct (eval c (tt x)); [|apply inline_alike; [rewrite W; exact Lb | intros m' H; apply K, H]].
    eapply then_alike; [|apply le_n | intros c0 v H; apply K, H]. cbn. split; [reflexivity|]. change (opens w' <= b). pose proof (opens_cons x w'). lia.
  - change (nd1 need_table (SCall r)) with (need r) in Ld. pose proof (need_code r) as N1. destruct d as [|d']; [lia|].
    eapply then_alike; [|apply le_n | intros c v H; apply K, H]. eapply bind_alike; [apply I1; [exact Lb | lia] | intros o L; apply catch_alike, L].
  - change (nd1 need_table (SIfLa c b0)) with (nds b0) in Ld. destruct (eval c (la (ws m))); [|apply K, Lb].
    eapply then_alike; [apply I1; [exact Lb | lia] | apply le_n | intros; apply K; assumption].
  - change (nd1 need_table (SWhileLa c b0)) with (nds b0) in Ld. destruct (eval c (la (ws m))); [|apply K, Lb].
    eapply then_alike; [apply I1; [exact Lb | lia] | apply le_n | intros; apply K2; assumption].
  - change (nd1 need_table (SDoLa c b0)) with (nds b0) in Ld.
    eapply then_alike; [apply I1; [exact Lb | lia] | apply le_n |]. intros c1 v H. destruct (eval c (la (ws v))); [apply K2, H | apply K, H].
  - destruct (pick_case (la (ws m)) bs) as [b0|] eqn:P; [|cbn; auto]. apply pick_need in P as [P|(E & N2 & q & ->)].
    + eapply then_alike; [apply I1; [exact Lb | lia] | apply le_n | intros; apply K; assumption].
    + eapply then_alike; [|apply le_n | intros; apply K; assumption].
      destruct n' as [|n1]; [cbn; auto|]. cbn [srun rrun]. destruct n1 as [|n2]; [cbn; auto|]. cbn [srun rrun].
      destruct need_comment as (tail & C & N3). assert (6 = need R_comment) by (vm_compute; reflexivity). destruct d as [|d']; [lia|].
      eapply then_alike; [|apply le_n | intros c v H0; apply IH; [lia | exact H0 | change (nds []) with 0; lia]].
      eapply bind_alike; [|intros o L; apply catch_alike; exact L].
      rewrite C. destruct (opens_la _ E) as (x & w' & W & Tx & O).
      destruct n2 as [|n3]; [cbn; auto|]. cbn [srun rrun]. destruct n3 as [|n4]; [cbn; auto|]. cbn [srun rrun].
      rewrite W, Tx, N.eqb_refl. apply alike_more with (opens w'); [rewrite O in Lb; lia|].
      eapply then_alike; [|apply le_n|]; [cbn; auto|]. intros c v H0. apply IH; [lia | exact H0|]. rewrite O in Lb. lia.
  - cbn [alike_to]. repeat (split; [reflexivity|]). intros [[|j]|].
    + apply K, Lb.
    + destruct (nth_error bs j) as [b0|] eqn:E; [|apply K, Lb]. apply (nth_need _ _ _ d0) in E.
      eapply then_alike; [apply I1; [exact Lb | lia] | apply le_n | intros; apply K; assumption].
    + cbn. auto.
  - change (nd1 need_table (SWhilePredict d0 b0 t)) with (Nat.max (nds b0) (nds t)) in Ld. cbn [alike_to]. repeat (split; [reflexivity|]).
    assert (T : forall c v, opens (ws v) <= b -> alike_to b (rthen (srun d n' t c st v) (fun c2 u => srun d n' (SWhilePredict d0 b0 t :: cs') c2 st u)) (rthen (rrun n' t c st v) (fun c2 u => rrun n' (SWhilePredict d0 b0 t :: cs') c2 st u))).
    { intros c v H. eapply then_alike; [apply I1; [exact H | lia] | apply le_n | intros; apply K2; assumption]. }
    intros [[|[|[|j]]]|]; [apply K, Lb | | apply K, Lb | apply T, Lb | cbn; auto].
    eapply then_alike; [apply I1; [exact Lb | lia] | apply le_n | intros; apply T; assumption].
  - change (nd1 need_table (SDoPredict d0 b0 t)) with (Nat.max (nds b0) (nds t)) in Ld.
    eapply then_alike; [apply I1; [exact Lb | lia] | apply le_n |]. intros c1 v H. eapply then_alike; [apply I1; [exact H | lia] | apply le_n |].
    intros c2 u H2. cbn [alike_to]. repeat (split; [reflexivity|]). intros [[|[|[|j]]]|]; [apply K, H2 | apply K2, H2 | apply K, H2 | cbn; auto | cbn; auto].
Qed.

(** ** Theorems *)
Lemma alike_may p : forall q o, alike p q -> may_end p o -> may_end q o.
Proof.
  induction p as [o0|d st w k IH|n t k IH|n t k IH|n t k IH]; intros [o'|d' st' w' k'|n' t' k'|n' t' k'|n' t' k'] o; cbn [alike]; try tauto; intros A Ho.
  - subst. exact Ho.
  - destruct A as (-> & -> & -> & A). inversion Ho; subst. eapply me_ask; eauto.
  - destruct A as (-> & -> & A). inversion Ho; subst. eapply me_sync; eauto.
  - destruct A as (-> & -> & A). inversion Ho; subst. eapply me_inline; eauto.
  - destruct A as (-> & -> & A). inversion Ho; subst. eapply me_skip; eauto.
Qed.
Lemma enough_stack e input w d r : start_rule r -> scans (bad_rune e) (decode input) w -> S (nds (code r)) + 2 * parens input <= d ->
  (forall n, alike (sstart d n r w) (rstart n r w)) /\
  exists n0, forall n, n0 <= n -> forall o, may_end (sstart d n r w) o -> o <> RFuel.
Proof.
  intros Hr Hw Hd. apply C49_token_stream in Hw as ->. pose proof (opens_lex (bad_rune e) (decode input)) as O.
  assert (A : forall n, alike (sstart d n r (lex (bad_rune e) (decode input))) (rstart n r (lex (bad_rune e) (decode input)))).
  { intros n. apply (alike_to_alike (parens input)). unfold sstart, rstart. eapply bind_alike; [|intros o L; apply catch_alike; exact L].
    apply stack_enough; [exact O|]. unfold parens in *. lia. }
  split; [exact A|]. destruct (C65_every_run_ends r _ Hr (lex_stream (bad_rune e) (decode input))) as (n0 & H). exists n0. intros n Hn o Ho.
  apply (alike_may _ _ _ (A n)) in Ho. destruct (proj2 (H n Hn) o Ho) as (f & c & m & -> & _). discriminate.
Qed.

(** Accepted or not, whatever the runtime and its error handler reply: a stack for 22 calls of rule functions (9 for a
    date), and two for each opening parenthesis, is enough: nothing is done otherwise than on a stack without
    bound, and no run comes to an end for want of room. *)
Theorem C74_address_stack e input w : scans (bad_rune e) (decode input) w ->
  (forall n, alike (sstart (22 + 2 * parens input) n R_addressList w) (rstart n R_addressList w)) /\
  exists n0, forall n, n0 <= n -> forall o, may_end (sstart (22 + 2 * parens input) n R_addressList w) o -> o <> RFuel.
Proof. intros Hw. apply (enough_stack e input); [left; reflexivity | exact Hw|]. change (nds (code R_addressList)) with 21. lia. Qed.
Theorem C74_date_stack e input w : scans (bad_rune e) (decode input) w ->
  (forall n, alike (sstart (9 + 2 * parens input) n R_dateTime w) (rstart n R_dateTime w)) /\
  exists n0, forall n, n0 <= n -> forall o, may_end (sstart (9 + 2 * parens input) n R_dateTime w) o -> o <> RFuel.
Proof. intros Hw. apply (enough_stack e input); [right; reflexivity | exact Hw|]. change (nds (code R_dateTime)) with 8. lia. Qed.

(** A date rejected after several rules were given up, and an address with nested comments, on stacks of different sizes:
    if there is too little room the run ends with neither an answer nor an error. *)
Example C74_rejected : map (fun d => summary (rexec (hints "1Jan20 10:10") 0 (sstart d 1000 R_dateTime (tokens env1 (bs "1Jan20 10::10"))))) [1; 2; 9]
  = [None; Some (true, 9); Some (true, 9)].
Proof. vm_compute. reflexivity. Qed.
Example C74_comments : map (fun d => summary (rexec (hints "((a)) 1Jan20 10:10") 0 (sstart d 1000 R_dateTime (tokens env1 (bs "((a)) 1Jan20 10:10"))))) [1; 4; 6; 8; 10; 13]
  = [None; None; None; None; Some (false, 0); Some (false, 0)].
Proof. vm_compute. reflexivity. Qed.
