(** C79, continued: results with quoted strings and literals. *)
From Coq Require Import String List NArith ZArith Bool Arith Lia.
From Verif Require Import Lexer Grammar Utf8 Strs Mime GoTime Parser Walker Api Spec ParserFacts
  WalkerFacts Static Total Cfws LangFacts LexFacts Utf8Facts First DateSpec DateCase AddrSpec Chosen AddrSem CharFacts PropApi PropInv
  ScanSpec ScanFacts ScanEnc ScanPhase PropScan AcceptText PropAccept PropCase PropBlank.
Import ListNotations.

(** ** Specification *)
(** a name and an address with spaces for tabs *)
Definition untab_addr (a : addr) : addr := mkAddr (untabbed (a_name a)) (untabbed (a_address a)).

(** ** The scanner *)
Local Open Scope N_scope.
Definition tabE (x : emit) : emit :=
  match x with EA r => EA (untab r) | ES r => ES (untab r) | EQ t => EQ (untabbed t) | EL t => EL (untabbed t) | EG => EG | ESep => ESep end.
Definition tabM (m : mode) : mode :=
  match m with
  | MN a => MN a | MC a n => MC a n | MCE a n => MCE a n
  | MQ a acc p => MQ a (untabbed acc) (untabbed p) | MQE a acc p => MQE a (untabbed acc) (untabbed p) | ML a acc => ML a (untabbed acc)
  end.
Definition tabL : list emit -> list emit := map tabE.

Lemma untab_either r : untab r = r \/ r = 9 /\ untab r = 32.
Proof. unfold untab. destruct (N.eqb_spec r 9); auto. Qed.
Lemma untab_eqb k r : (k <> 9 /\ k <> 32) -> N.eqb (untab r) k = N.eqb r k.
Proof. intros H. destruct (untab_either r) as [->|[-> ->]]; [reflexivity|]. destruct (N.eqb_spec 32 k), (N.eqb_spec 9 k); lia. Qed.
Lemma class_tab (P : rune -> bool) : P 32 = P 9 -> forall r, P (untab r) = P r.
Proof. intros H r. destruct (untab_either r) as [->|[-> ->]]; [reflexivity | exact H]. Qed.
Lemma ws_tab r : ws (untab r) = ws r.
Proof. apply class_tab. vm_compute. reflexivity. Qed.
Lemma atext_tab r : atext_char (untab r) = atext_char r.
Proof. apply class_tab. vm_compute. reflexivity. Qed.
Lemma lost_tab r : lost (untab r) = lost r.
Proof. apply class_tab. vm_compute. reflexivity. Qed.
Lemma digit_tab r : digit_char (untab r) = digit_char r.
Proof. apply class_tab. vm_compute. reflexivity. Qed.

Lemma step_tab m r : step (tabM m) (untab r) = (tabM (fst (step m r)), tabL (snd (step m r))).
Proof.
  destruct m as [a|a n|a n|a acc p|a acc p|a acc]; cbn [tabM step]; rewrite ?ws_tab, ?atext_tab, ?lost_tab, ?untab_eqb by lia.
  - destruct (ws r); [reflexivity|]. do 5 (match goal with |- context [if ?b then _ else _] => destruct b; [reflexivity|] end).
    match goal with |- context [if ?b then _ else _] => destruct b; [destruct a; reflexivity|] end. destruct (atext_char r); reflexivity.
  - destruct (r =? 40)%N; [reflexivity|]. destruct (r =? 41)%N; [destruct n; reflexivity|]. destruct (r =? 92)%N; reflexivity.
  - reflexivity.
  - destruct (r =? 34)%N; [reflexivity|]. destruct (r =? 92)%N; [reflexivity|]. destruct (ws r); cbn [fst snd tabM]; unfold untabbed; rewrite ?map_app; reflexivity.
  - cbn [fst snd tabM]. unfold untabbed. rewrite !map_app. destruct (lost r); reflexivity.
  - destruct (r =? 93)%N; cbn [fst snd tabM tabL map tabE]; unfold untabbed; rewrite ?map_app; reflexivity.
Qed.
Lemma run_tab x : forall m, run (tabM m) (untabbed x) = (tabM (fst (run m x)), tabL (snd (run m x))).
Proof.
  induction x as [|r x IH]; intros m; [reflexivity|]. cbn [untabbed map run]. change (map untab x) with (untabbed x). rewrite step_tab.
  destruct (step m r) as [m1 e1]. cbn [fst snd]. rewrite IH. destruct (run m1 x) as [m2 e2]. cbn [fst snd]. unfold tabL. now rewrite map_app.
Qed.
Lemma scan_tab x : scan (untabbed x) = tabL (scan x).
Proof. unfold scan. change (MN false) with (tabM (MN false)) at 1. rewrite run_tab. reflexivity. Qed.

Lemma encode1_tab r : encode1 (untab r) = untabbed (encode1 r).
Proof.
  destruct (untab_either r) as [E|[R E]].
  - rewrite E. destruct (r <? 128)%N eqn:L; [unfold encode1; rewrite L; cbn [untabbed map]; now rewrite E|].
    assert (H : Forall (fun b => (122 < b)%N) (encode1 r)).
    { apply Forall_forall. intros b Hb. unfold encode1 in Hb. rewrite L in Hb. apply N.ltb_ge in L.
      destruct (r <? 2048)%N; [|destruct (in_range 55296 57343 r || (1114111 <? r))%N; [|destruct (r <? 65536)%N]]; cbn [In] in Hb; intuition (subst; lia). }
    revert H. generalize (encode1 r). intros l H. induction H as [|b l Hb H IH]; [reflexivity|]. cbn [untabbed map]. replace (untab b) with b by (unfold untab; destruct (N.eqb_spec b 9); [lia | reflexivity]). f_equal. exact IH.
  - unfold encode1. replace (untab r <? 128)%N with true by (symmetry; apply N.ltb_lt; lia). replace (r <? 128)%N with true by (symmetry; apply N.ltb_lt; lia). reflexivity.
Qed.
Lemma encode_tab x : encode (untabbed x) = untabbed (encode x).
Proof. induction x as [|r x IH]; [reflexivity|]. cbn [untabbed map]. unfold encode. cbn [flat_map]. fold (encode (map untab x)) (encode x). change (map untab x) with (untabbed x). rewrite encode1_tab, IH. unfold untabbed. now rewrite map_app. Qed.

Lemma intro_tab x : intro (untabbed x) = intro x.
Proof.
  induction x as [|r x IH]; [reflexivity|]. cbn [untabbed map intro] in *. destruct x as [|r2 x]; [reflexivity|]. cbn [map]. cbn [untabbed map] in IH. rewrite !untab_eqb by lia. now rewrite IH.
Qed.
Lemma gaps_tab l : gaps (tabL l) = gaps l.
Proof. induction l as [|x l IH]; [reflexivity|]. unfold tabL, gaps in *. cbn [map forallb]. rewrite IH. destruct x; reflexivity. Qed.
Lemma drop_tab l : drop_gaps (tabL l) = tabL (drop_gaps l).
Proof. induction l as [|x l IH]; [reflexivity|]. destruct x; try reflexivity. exact IH. Qed.
Lemma trim_tab l : trim (tabL l) = tabL (trim l).
Proof. unfold trim. rewrite drop_tab. unfold tabL. rewrite <- map_rev. fold tabL. change (map tabE) with tabL. rewrite drop_tab. unfold tabL. now rewrite map_rev. Qed.
Lemma dotty_tab l : forallb dotty (tabL l) = forallb dotty l.
Proof. induction l as [|x l IH]; [reflexivity|]. unfold tabL in *. cbn [map forallb]. rewrite IH. f_equal. destruct x; try reflexivity. cbn [tabE dotty]. apply untab_eqb. lia. Qed.
Lemma plain_tab x : ScanSpec.plain (tabE x) = untabbed (ScanSpec.plain x).
Proof. destruct x; cbn [tabE ScanSpec.plain]; auto using encode1_tab, encode_tab. Qed.
Lemma flat_tab l : flat (tabL l) = untabbed (flat l).
Proof. unfold flat. induction l as [|x l IH]; [reflexivity|]. unfold tabL in *. cbn [map flat_map]. rewrite IH, plain_tab. unfold untabbed. now rewrite map_app. Qed.
Definition low2 (p : list emit * list emit) : list emit * list emit := (tabL (fst p), tabL (snd p)).
Lemma cut_tab c l : (c <> 9 /\ c <> 32)%N -> cut c (tabL l) = option_map low2 (cut c l).
Proof.
  intros Hc. induction l as [|x l IH]; [reflexivity|]. unfold tabL in *. cbn [map cut]. rewrite IH.
  destruct x; cbn [tabE]; try (destruct (cut c l) as [[a b]|]; reflexivity).
  rewrite untab_eqb by exact Hc. destruct (r =? c)%N; [reflexivity|]. destruct (cut c l) as [[a b]|]; reflexivity.
Qed.
Lemma port_tab l : port_like (tabL l) = port_like l.
Proof. induction l as [|x l IH]; [reflexivity|]. destruct x; try reflexivity. cbn [tabL map tabE port_like]. fold (tabL l). now rewrite IH, gaps_tab, digit_tab. Qed.
Lemma ungroup_tab l : ungroup (tabL l) = tabL (ungroup l).
Proof.
  unfold ungroup. rewrite cut_tab by lia. destruct (cut 58 l) as [[a b]|]; [|reflexivity]. cbn [option_map low2 fst snd]. rewrite cut_tab by lia.
  destruct (cut 60 a) as [[c d]|]; cbn [option_map]; [reflexivity|]. rewrite port_tab. destruct (port_like b); reflexivity.
Qed.
Lemma pieces_tab l : pieces (tabL l) = map tabL (pieces l).
Proof.
  induction l as [|x l IH]; [reflexivity|]. unfold tabL in *. cbn [map pieces]. rewrite IH.
  destruct x; cbn [tabE]; try reflexivity; destruct (pieces l); reflexivity.
Qed.

Lemma tabs_app a b : untabbed (a ++ b) = untabbed a ++ untabbed b.
Proof. apply map_app. Qed.
Lemma tabs_nil a : untabbed a = [] -> a = [].
Proof. destruct a; [reflexivity | discriminate]. Qed.
Lemma glue_tab n u v : glue (untabbed n) u (untabbed v) = untabbed (glue n u v).
Proof. unfold glue. destruct u; [now rewrite tabs_app|]. destruct n as [|c n]; [reflexivity|]. rewrite !tabs_app. reflexivity. Qed.

Section READER.
Variable rd : charset_reader.
Definition tabst (st : nstate) : nstate := (untabbed (fst (fst st)), snd (fst st), snd st).
Lemma flush_tab st p : intro p = false -> flush rd (tabst st) (untabbed p) = tabst (flush rd st p).
Proof.
  intros H. destruct p as [|r p]; [reflexivity|]. destruct st as [[n u] pe]. unfold flush. cbn [untabbed map]. change (untab r :: map untab p) with (untabbed (r :: p)).
  rewrite (split_none (r :: p) H), split_none by (rewrite intro_tab; exact H). cbn [tabst fst snd]. rewrite encode_tab, glue_tab. reflexivity.
Qed.
Lemma nitem_tab st x : nitem (tabst st) (tabE x) = tabst (nitem st x).
Proof.
  destruct st as [[n u] pe]. destruct x; try reflexivity; cbn [nitem tabE tabst fst snd]; unfold tabst; cbn [fst snd].
  - rewrite encode1_tab, tabs_app. reflexivity.
  - rewrite encode_tab, glue_tab. reflexivity.
Qed.
Lemma pure_run p l : pure (map EA p ++ l) -> intro p = false.
Proof. intros H. apply (H [] p l). reflexivity. Qed.
Lemma pure_next p x l : pure (map EA p ++ x :: l) -> pure l.
Proof. intros H. apply (pure_end (map EA p ++ [x])). now rewrite <- app_assoc. Qed.
Lemma names_tab l : forall st p, pure (map EA p ++ l) -> names rd (tabst st) (untabbed p) (tabL l) = untabbed (names rd st p l).
Proof.
  induction l as [|x l IH]; intros st p H.
  - cbn [tabL map names]. rewrite flush_tab by (apply (pure_run p []); exact H). destruct (flush rd st p) as [[n u] pe]. reflexivity.
  - pose proof (pure_run _ _ H) as R. pose proof (pure_next _ _ _ H) as Nx.
    assert (K : names rd (nitem (flush rd (tabst st) (untabbed p)) (tabE x)) [] (tabL l) = untabbed (names rd (nitem (flush rd st p) x) [] l)).
    { rewrite flush_tab by exact R. rewrite nitem_tab. apply (IH _ []). exact Nx. }
    destruct x; try exact K. cbn [tabL map tabE names]. change (map tabE l) with (tabL l). rewrite <- IH; [now rewrite tabs_app|].
    rewrite map_app, <- app_assoc. exact H.
Qed.
Lemma name_tab l : pure l -> name_of rd (tabL l) = untabbed (name_of rd l).
Proof. intros H. apply (names_tab l ([], false, false) [] H). Qed.
Lemma run_value_tab p : intro p = false -> run_value rd (untabbed p) = untabbed (run_value rd p).
Proof.
  intros H. unfold run_value, enc_words. rewrite (split_none p H), split_none by (rewrite intro_tab; exact H). apply encode_tab.
Qed.
Lemma decoded_tab l : forall p, pure (map EA p ++ l) -> decoded rd (untabbed p) (tabL l) = untabbed (decoded rd p l).
Proof.
  induction l as [|x l IH]; intros p H.
  - apply run_value_tab. apply (pure_run p []). exact H.
  - pose proof (pure_run _ _ H) as R. pose proof (pure_next _ _ _ H) as Nx.
    assert (K : run_value rd (untabbed p) ++ ScanSpec.plain (tabE x) ++ decoded rd [] (tabL l) = untabbed (run_value rd p ++ ScanSpec.plain x ++ decoded rd [] l)).
    { rewrite run_value_tab by exact R. rewrite plain_tab, !tabs_app. do 2 f_equal. apply (IH []). exact Nx. }
    destruct x; try exact K. cbn [tabL map tabE decoded]. change (map tabE l) with (tabL l). rewrite <- IH; [now rewrite tabs_app|].
    rewrite map_app, <- app_assoc. exact H.
Qed.
Lemma local_tab l : pure l -> local_of rd (tabL l) = untabbed (local_of rd l).
Proof. intros H. unfold local_of. rewrite trim_tab, dotty_tab. destruct (forallb dotty (trim l)); [apply flat_tab | exact (decoded_tab l [] H)]. Qed.
Lemma spec_tab l : pure l -> spec_of rd (tabL l) = untabbed (spec_of rd l).
Proof.
  intros H. unfold spec_of. rewrite cut_tab by lia. destruct (cut 64 l) as [[a b]|] eqn:E; [|reflexivity]. cbn [option_map low2 fst snd].
  apply (pure_cut _ _ _ _ H) in E as [Ha Hb]. rewrite local_tab by exact Ha. rewrite flat_tab, !tabs_app. reflexivity.
Qed.
Lemma angle_tab l : pure l -> angle_of rd (tabL l) = untabbed (angle_of rd l).
Proof.
  intros H. unfold angle_of. rewrite drop_tab, spec_tab by exact H. destruct (drop_gaps l) as [|x d]; [reflexivity|]. cbn [tabL map]. destruct x; try reflexivity.
  cbn [tabE]. rewrite !untab_eqb by lia. destruct ((r =? 64) || (r =? 44))%N; [|reflexivity]. change (map tabE) with tabL. rewrite cut_tab by lia.
  destruct (cut 58 l) as [[a b]|] eqn:E; [|reflexivity]. cbn [option_map low2 fst snd]. apply spec_tab. now apply (pure_cut _ _ _ _ H) in E.
Qed.
Lemma mailbox_tab l : pure l -> mailbox_of rd (tabL l) = untab_addr (mailbox_of rd l).
Proof.
  intros H. unfold mailbox_of. rewrite cut_tab by lia. destruct (cut 60 l) as [[n m]|] eqn:E; cbn [option_map low2 fst snd].
  - apply (pure_cut _ _ _ _ H) in E as [Hn Hm]. rewrite cut_tab by lia. unfold untab_addr. cbn [a_name a_address]. rewrite name_tab by exact Hn. f_equal.
    destruct (cut 62 m) as [[i j]|] eqn:E2; [|reflexivity]. cbn [option_map low2 fst snd]. apply angle_tab. now apply (pure_cut _ _ _ _ Hm) in E2.
  - unfold untab_addr. cbn [a_name a_address]. now rewrite spec_tab.
Qed.
Lemma element_tab l : pure l -> element rd (tabL l) = map untab_addr (element rd l).
Proof.
  intros H. unfold element. rewrite ungroup_tab, gaps_tab. destruct (gaps (ungroup l)); [reflexivity|]. cbn [map]. rewrite mailbox_tab; [reflexivity | now apply pure_ungroup].
Qed.
Lemma addresses_tab x : intro x = false -> addresses_of rd (untabbed x) = map untab_addr (addresses_of rd x).
Proof.
  intros H. unfold addresses_of, elements. rewrite scan_tab, pieces_tab. pose proof (scan_pure x H) as P.
  assert (K : forall p, In p (pieces (scan x)) -> pure p) by (intros p Hp; apply pieces_part in Hp as (a & c & E); rewrite E in P; exact (pure_part _ _ _ P)).
  induction (pieces (scan x)) as [|p ps IH]; [reflexivity|]. cbn [map flat_map]. rewrite element_tab by (apply K; now left). rewrite map_app. f_equal. apply IH. intros q Hq. apply K. now right.
Qed.
End READER.

(** ** Quotes *)
Lemma in_tab k q : (k <> 9 /\ k <> 32) -> (In k (untabbed q) <-> In k q).
Proof.
  intros Hk. induction q as [|r q IH]; [reflexivity|]. cbn [untabbed map In]. rewrite <- IH. pose proof (untab_eqb k r Hk) as E.
  split; (intros [H|H]; [left | right; exact H]); [apply N.eqb_eq; rewrite <- E | apply N.eqb_eq; rewrite E]; now apply N.eqb_eq.
Qed.
Lemma exists_tab r l : Forall (fun k => k <> 9 /\ k <> 32) l -> existsb (N.eqb (untab r)) l = existsb (N.eqb r) l.
Proof. induction 1 as [|k l Hk _ IH]; [reflexivity|]. cbn [existsb]. now rewrite IH, untab_eqb. Qed.
Lemma at_end_tab x : at_end (untabbed x) = at_end x.
Proof.
  unfold at_end. induction x as [|r x IH]; [reflexivity|]. cbn [untabbed map after_space]. rewrite ws_tab. destruct (ws r); [exact IH|].
  apply exists_tab. repeat constructor; lia.
Qed.
Lemma loose_tab x : forall b, loose b (untabbed x) = loose b x.
Proof.
  induction x as [|r x IH]; intros b; [reflexivity|]. cbn [untabbed map loose]. change (map untab x) with (untabbed x).
  rewrite at_end_tab, IH, untab_eqb by lia. rewrite exists_tab by (repeat constructor; lia). reflexivity.
Qed.
Lemma plain_mode_tab m : plain_mode (tabM m) = plain_mode m.
Proof. destruct m; reflexivity. Qed.
Lemma ends_tab l (q : list rune) : Forall (fun k => k <> 9 /\ k <> 32) l -> ends_with l (untabbed q) = ends_with l q.
Proof.
  intros H. unfold ends_with. change (@rev rune (untabbed q)) with (rev (map untab q)). rewrite <- (map_rev untab q). change (@rev rune q) with (@rev byte q).
  destruct (@rev byte q) as [|r t]; [reflexivity|]. cbn [map]. now apply exists_tab.
Qed.
Lemma snoc_tab q r : untabbed q ++ [untab r] = untabbed (q ++ [r]).
Proof. now rewrite tabs_app. Qed.
Lemma regular_tab x : forall m q, regular_from (tabM m) (untabbed q) (untabbed x) = regular_from m q x.
Proof.
  induction x as [|r x IH]; intros m q; [destruct m; reflexivity|].
  change (untabbed (r :: x)) with (untab r :: untabbed x).
  assert (S : fst (step (tabM m) (untab r)) = tabM (fst (step m r))) by (rewrite step_tab; reflexivity).
  assert (I : forall q', regular_from (tabM (fst (step m r))) (untabbed q') (untabbed x) = regular_from (fst (step m r)) q' x) by (intros q'; apply IH).
  pose proof (I [] : regular_from (tabM (fst (step m r))) (@nil rune) (untabbed x) = regular_from (fst (step m r)) (@nil rune) x) as I0.
  assert (P : plain_mode (fst (run (MN false) (untabbed q))) = plain_mode (fst (run (MN false) q))).
  { change (MN false) with (tabM (MN false)) at 1. rewrite run_tab. apply plain_mode_tab. }
  destruct m as [a|a n|a n|a acc p|a acc p|a acc]; cbn [tabM] in S |- *; cbn [regular_from]; cbv zeta; rewrite S; rewrite ?I0, ?snoc_tab, ?I, ?intro_tab, ?P, ?untab_eqb by lia; try reflexivity.
  rewrite ends_tab by (repeat constructor; lia). reflexivity.
Qed.
Lemma paired_tab x : paired (untabbed x) <-> paired x.
Proof.
  unfold paired, regular. rewrite loose_tab, !in_tab by lia. change (MN false) with (tabM (MN false)) at 1. change (@nil rune) with (untabbed []) at 1. rewrite regular_tab. reflexivity.
Qed.

(** ** Results *)
(** Where no encoded word begins, accepted address lists that differ only in that one has tabs where the other has
    spaces give the same addresses, again but for tabs and spaces. *)
Theorem C79_results : forall e s1 s2 l1, s1 <> [] -> s2 <> [] -> untabbed (kept s1) = untabbed (kept s2) -> lexes e s2 ->
  ParseAddressList e s1 = Ret l1 None -> paired (kept s1) -> intro (kept s1) = false ->
  exists l2, ParseAddressList e s2 = Ret l2 None /\ map untab_addr (elems l1) = map untab_addr (elems l2).
Proof.
  intros e s1 s2 l1 Z1 Z2 K L R1 P1 N1.
  destruct (proj1 (C56_accepted_address_lists e s1 Z1) (ex_intro _ l1 R1)) as [_ L1].
  destruct (proj1 (C79_lists_accepted e s1 s2 Z1 Z2 K L1 L) (ex_intro _ l1 R1)) as [l2 R2].
  assert (P2 : paired (kept s2)) by (apply paired_tab; rewrite <- K; now apply paired_tab).
  assert (N2 : intro (kept s2) = false) by (rewrite <- intro_tab, <- K, intro_tab; exact N1).
  exists l2. split; [exact R2|].
  rewrite (C47_without_encoded_words e s1 l1 R1 P1 N1), (C47_without_encoded_words e s2 l2 R2 P2 N2).
  rewrite <- !addresses_tab by assumption. now rewrite K.
Qed.

Example C79_results_met : let s1 := bs """a b"" <""x y""@[d  e]>, g: h@i;" in let s2 := bs """a" ++ tab ++ bs "b""" ++ tab ++ bs "<""x y""@[d" ++ tab ++ bs " e]>, g:" ++ tab ++ bs "h@i;" in
  untabbed (kept s1) = untabbed (kept s2) /\ lexes env0 s2 /\ paired (kept s1) /\ intro (kept s1) = false /\
  (exists l, ParseAddressList env0 s1 = Ret l None /\ elems l = [mkAddr (bs "a b") (bs "x y@[d  e]"); mkAddr [] (bs "h@i")]) /\
  (exists l, ParseAddressList env0 s2 = Ret l None /\ elems l = [mkAddr (bs "a" ++ tab ++ bs "b") (bs "x y@[d" ++ tab ++ bs " e]"); mkAddr [] (bs "h@i")]).
Proof.
  cbv zeta. repeat match goal with |- _ /\ _ => split end; try apply env0_lexes; try (vm_compute; reflexivity).
  - right. right. left. vm_compute. reflexivity.
  - eexists. split; vm_compute; reflexivity.
  - eexists. split; vm_compute; reflexivity.
Qed.
