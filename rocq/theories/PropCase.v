(** C77: letter case in address lists. *)
From Coq Require Import String List NArith ZArith Bool Arith Lia.
From Verif Require Import Lexer Grammar Utf8 Strs Mime GoTime Parser Walker Api Spec ParserFacts
  WalkerFacts Static Total Cfws LangFacts LexFacts Utf8Facts First DateSpec DateCase AddrSpec Chosen AddrSem CharFacts PropApi PropInv
  ScanSpec ScanFacts ScanEnc ScanPhase PropScan.
Import ListNotations.

(** ** Acceptance *)
Theorem C77_acceptance : forall e s1 s2, to_lower s1 = to_lower s2 ->
  (exists l1 l2, ParseAddressList e s1 = Ret l1 None /\ ParseAddressList e s2 = Ret l2 None) \/
  (ParseAddressList e s1 = Ret None (Some ESyntax) /\ ParseAddressList e s2 = Ret None (Some ESyntax)).
Proof.
  intros e s1 s2 E.
  assert (TY : map tt (tokens e s1) = map tt (tokens e s2)).
  { unfold tokens. rewrite <- (lex_types_lower _ (decode s1)), <- (lex_types_lower _ (decode s2)).
    now rewrite <- !decode_lower, E. }
  destruct (parse_address_list_cases e s1) as [[E1 R1]|[[N1 [L1 R1]]|[N1 [ch1 [L1 [D1 [Y1 [_ R1]]]]]]]].
  - subst s1. destruct s2; [|discriminate]. left. eauto.
  - right. split; [exact R1|].
    destruct (parse_address_list_cases e s2) as [[E2 R2]|[[N2 [L2 R2]]|[N2 [ch2 [L2 [D2 [Y2 [_ R2]]]]]]]].
    + subst s2. destruct s1; [congruence | discriminate].
    + exact R2.
    + exfalso. apply L1. eapply lang_types; [exact TY|]. apply lang_nt. exists ch2. auto.
  - destruct (parse_address_list_cases e s2) as [[E2 R2]|[[N2 [L2 R2]]|[N2 [ch2 [L2 [D2 [Y2 [_ R2]]]]]]]].
    + subst s2. destruct s1; [congruence | discriminate].
    + exfalso. apply L2. eapply lang_types; [symmetry; exact TY|]. apply lang_nt. exists ch1. auto.
    + left. eauto.
Qed.

(** ** Specification *)
(** a name and an address in lower case *)
Definition low_addr (a : addr) : addr := mkAddr (to_lower (a_name a)) (to_lower (a_address a)).

(** ** The scanner *)
Local Open Scope N_scope.
Definition lowE (x : emit) : emit :=
  match x with EA r => EA (lower_byte r) | ES r => ES (lower_byte r) | EQ t => EQ (to_lower t) | EL t => EL (to_lower t) | EG => EG | ESep => ESep end.
Definition lowM (m : mode) : mode :=
  match m with
  | MN a => MN a | MC a n => MC a n | MCE a n => MCE a n
  | MQ a acc p => MQ a (to_lower acc) (to_lower p) | MQE a acc p => MQE a (to_lower acc) (to_lower p) | ML a acc => ML a (to_lower acc)
  end.
Definition lowL : list emit -> list emit := map lowE.

Lemma lower_cases r : lower_byte r = r \/ (65 <= r <= 90)%N /\ lower_byte r = (r + 32)%N.
Proof. unfold lower_byte. destruct (in_range 65 90 r)%N eqn:E; [apply in_range_spec in E; auto | auto]. Qed.
Lemma lower_eqb k r : (k < 65 \/ 122 < k \/ 90 < k < 97)%N -> N.eqb (lower_byte r) k = N.eqb r k.
Proof. intros H. destruct (lower_cases r) as [->|[R ->]]; [reflexivity|]. destruct (N.eqb_spec (r + 32) k), (N.eqb_spec r k); lia. Qed.
Lemma upper_range (P : rune -> bool) r : (65 <= r <= 90)%N -> forallb (fun k => Bool.eqb (P (N.of_nat (97 + k)%nat)) (P (N.of_nat (65 + k)%nat))) (seq 0 26)%nat = true -> P (r + 32)%N = P r.
Proof.
  intros R H. rewrite forallb_forall in H. assert (I : In (N.to_nat r - 65)%nat (seq 0 26)%nat) by (apply in_seq; lia). specialize (H _ I). apply Bool.eqb_prop in H.
  replace (r + 32)%N with (N.of_nat (97 + (N.to_nat r - 65))%nat) by lia. rewrite H. f_equal. lia.
Qed.
Lemma class_low (P : rune -> bool) : forallb (fun k => Bool.eqb (P (N.of_nat (97 + k)%nat)) (P (N.of_nat (65 + k)%nat))) (seq 0 26)%nat = true -> forall r, P (lower_byte r) = P r.
Proof. intros H r. destruct (lower_cases r) as [->|[R ->]]; [reflexivity | now apply upper_range]. Qed.
Lemma ws_low r : ws (lower_byte r) = ws r.
Proof. apply class_low. vm_compute. reflexivity. Qed.
Lemma atext_low r : atext_char (lower_byte r) = atext_char r.
Proof. apply class_low. vm_compute. reflexivity. Qed.
Lemma lost_low r : lost (lower_byte r) = lost r.
Proof. apply class_low. vm_compute. reflexivity. Qed.
Lemma digit_low r : digit_char (lower_byte r) = digit_char r.
Proof. apply class_low. vm_compute. reflexivity. Qed.

Lemma step_low m r : step (lowM m) (lower_byte r) = (lowM (fst (step m r)), lowL (snd (step m r))).
Proof.
  destruct m as [a|a n|a n|a acc p|a acc p|a acc]; cbn [lowM step]; rewrite ?ws_low, ?atext_low, ?lost_low, ?lower_eqb by lia.
  - destruct (ws r); [reflexivity|]. do 5 (match goal with |- context [if ?b then _ else _] => destruct b; [reflexivity|] end).
    match goal with |- context [if ?b then _ else _] => destruct b; [destruct a; reflexivity|] end. destruct (atext_char r); reflexivity.
  - destruct (r =? 40)%N; [reflexivity|]. destruct (r =? 41)%N; [destruct n; reflexivity|]. destruct (r =? 92)%N; reflexivity.
  - reflexivity.
  - destruct (r =? 34)%N; [reflexivity|]. destruct (r =? 92)%N; [reflexivity|]. destruct (ws r); cbn [fst snd lowM]; unfold to_lower; rewrite ?map_app; reflexivity.
  - cbn [fst snd lowM]. unfold to_lower. rewrite !map_app. destruct (lost r); reflexivity.
  - destruct (r =? 93)%N; cbn [fst snd lowM lowL map lowE]; unfold to_lower; rewrite ?map_app; reflexivity.
Qed.
Lemma run_low x : forall m, run (lowM m) (to_lower x) = (lowM (fst (run m x)), lowL (snd (run m x))).
Proof.
  induction x as [|r x IH]; intros m; [reflexivity|]. cbn [to_lower map run]. change (map lower_byte x) with (to_lower x). rewrite step_low.
  destruct (step m r) as [m1 e1]. cbn [fst snd]. rewrite IH. destruct (run m1 x) as [m2 e2]. cbn [fst snd]. unfold lowL. now rewrite map_app.
Qed.
Lemma scan_low x : scan (to_lower x) = lowL (scan x).
Proof. unfold scan. change (MN false) with (lowM (MN false)) at 1. rewrite run_low. reflexivity. Qed.

Lemma encode1_low r : encode1 (lower_byte r) = to_lower (encode1 r).
Proof.
  destruct (lower_cases r) as [E|[R E]].
  - rewrite E. destruct (r <? 128)%N eqn:L; [unfold encode1; rewrite L; cbn [to_lower map]; now rewrite E|].
    assert (H : Forall (fun b => (122 < b)%N) (encode1 r)).
    { apply Forall_forall. intros b Hb. unfold encode1 in Hb. rewrite L in Hb. apply N.ltb_ge in L.
      destruct (r <? 2048)%N; [|destruct (in_range 55296 57343 r || (1114111 <? r))%N; [|destruct (r <? 65536)%N]]; cbn [In] in Hb; intuition (subst; lia). }
    revert H. generalize (encode1 r). intros l H. induction H as [|b l Hb H IH]; [reflexivity|]. cbn [to_lower map]. rewrite (lower_high b Hb). f_equal. exact IH.
  - unfold encode1. replace (lower_byte r <? 128)%N with true by (symmetry; apply N.ltb_lt; lia). replace (r <? 128)%N with true by (symmetry; apply N.ltb_lt; lia). reflexivity.
Qed.
Lemma encode_low x : encode (to_lower x) = to_lower (encode x).
Proof. induction x as [|r x IH]; [reflexivity|]. cbn [to_lower map]. unfold encode. cbn [flat_map]. fold (encode (map lower_byte x)) (encode x). change (map lower_byte x) with (to_lower x). rewrite encode1_low, IH. unfold to_lower. now rewrite map_app. Qed.

Lemma intro_low x : intro (to_lower x) = intro x.
Proof.
  induction x as [|r x IH]; [reflexivity|]. cbn [to_lower map intro] in *. destruct x as [|r2 x]; [reflexivity|]. cbn [map]. cbn [to_lower map] in IH. rewrite !lower_eqb by lia. now rewrite IH.
Qed.
Lemma gaps_low l : gaps (lowL l) = gaps l.
Proof. induction l as [|x l IH]; [reflexivity|]. unfold lowL, gaps in *. cbn [map forallb]. rewrite IH. destruct x; reflexivity. Qed.
Lemma drop_low l : drop_gaps (lowL l) = lowL (drop_gaps l).
Proof. induction l as [|x l IH]; [reflexivity|]. destruct x; try reflexivity. exact IH. Qed.
Lemma trim_low l : trim (lowL l) = lowL (trim l).
Proof. unfold trim. rewrite drop_low. unfold lowL. rewrite <- map_rev. fold lowL. change (map lowE) with lowL. rewrite drop_low. unfold lowL. now rewrite map_rev. Qed.
Lemma dotty_low l : forallb dotty (lowL l) = forallb dotty l.
Proof. induction l as [|x l IH]; [reflexivity|]. unfold lowL in *. cbn [map forallb]. rewrite IH. f_equal. destruct x; try reflexivity. cbn [lowE dotty]. apply lower_eqb. lia. Qed.
Lemma plain_low x : ScanSpec.plain (lowE x) = to_lower (ScanSpec.plain x).
Proof. destruct x; cbn [lowE ScanSpec.plain]; auto using encode1_low, encode_low. Qed.
Lemma flat_low l : flat (lowL l) = to_lower (flat l).
Proof. unfold flat. induction l as [|x l IH]; [reflexivity|]. unfold lowL in *. cbn [map flat_map]. rewrite IH, plain_low. unfold to_lower. now rewrite map_app. Qed.
Definition low2 (p : list emit * list emit) : list emit * list emit := (lowL (fst p), lowL (snd p)).
Lemma cut_low c l : (c < 65 \/ 122 < c \/ 90 < c < 97)%N -> cut c (lowL l) = option_map low2 (cut c l).
Proof.
  intros Hc. induction l as [|x l IH]; [reflexivity|]. unfold lowL in *. cbn [map cut]. rewrite IH.
  destruct x; cbn [lowE]; try (destruct (cut c l) as [[a b]|]; reflexivity).
  rewrite lower_eqb by exact Hc. destruct (r =? c)%N; [reflexivity|]. destruct (cut c l) as [[a b]|]; reflexivity.
Qed.
Lemma port_low l : port_like (lowL l) = port_like l.
Proof. induction l as [|x l IH]; [reflexivity|]. destruct x; try reflexivity. cbn [lowL map lowE port_like]. fold (lowL l). now rewrite IH, gaps_low, digit_low. Qed.
Lemma ungroup_low l : ungroup (lowL l) = lowL (ungroup l).
Proof.
  unfold ungroup. rewrite cut_low by lia. destruct (cut 58 l) as [[a b]|]; [|reflexivity]. cbn [option_map low2 fst snd]. rewrite cut_low by lia.
  destruct (cut 60 a) as [[c d]|]; cbn [option_map]; [reflexivity|]. rewrite port_low. destruct (port_like b); reflexivity.
Qed.
Lemma pieces_low l : pieces (lowL l) = map lowL (pieces l).
Proof.
  induction l as [|x l IH]; [reflexivity|]. unfold lowL in *. cbn [map pieces]. rewrite IH.
  destruct x; cbn [lowE]; try reflexivity; destruct (pieces l); reflexivity.
Qed.

(** No run of atom characters holds the beginning of an encoded word. *)
Definition pure (l : list emit) : Prop := forall a b c, l = a ++ map EA b ++ c -> intro b = false.
Lemma pure_part a b c : pure (a ++ b ++ c) -> pure b.
Proof. intros H x y z ->. apply (H (a ++ x) y (z ++ c)). now rewrite <- !app_assoc. Qed.
Lemma pure_end a b : pure (a ++ b) -> pure b.
Proof. intros H. apply (pure_part a b []). now rewrite app_nil_r. Qed.
Lemma cut_parts c l a b : cut c l = Some (a, b) -> exists x, l = a ++ x :: b.
Proof.
  revert a b. induction l as [|x l IH]; intros a b H; [discriminate|]. cbn [cut] in H.
  assert (K : option_map (fun '(a, b) => (x :: a, b)) (cut c l) = Some (a, b) -> exists y, x :: l = a ++ y :: b).
  { destruct (cut c l) as [[a' b']|]; [|discriminate]. intros [= <- <-]. destruct (IH a' b' eq_refl) as [y ->]. exists y. reflexivity. }
  destruct x; try exact (K H). destruct (r =? c)%N; [injection H as <- <-; eexists; reflexivity | exact (K H)].
Qed.
Lemma pure_cut c l a b : pure l -> cut c l = Some (a, b) -> pure a /\ pure b.
Proof.
  intros P H. apply cut_parts in H as [x ->]. split.
  - apply (pure_part [] a (x :: b)). exact P.
  - apply (pure_end (a ++ [x])). now rewrite <- app_assoc.
Qed.
Lemma pure_ungroup l : pure l -> pure (ungroup l).
Proof.
  intros P. unfold ungroup. destruct (cut 58 l) as [[a b]|] eqn:E; [|exact P]. destruct (cut 60 a); [exact P|]. destruct (port_like b); [exact P|]. now apply (pure_cut _ _ _ _ P) in E.
Qed.
Lemma pieces_part l : forall p, In p (pieces l) -> exists a c, l = a ++ p ++ c.
Proof.
  assert (K : forall l, (forall p, In p (pieces l) -> exists a c, l = a ++ p ++ c) /\ (forall p ps, pieces l = p :: ps -> exists c, l = p ++ c)).
  { clear l. induction l as [|x l [IH1 IH2]].
    - split; [intros p [<-|[]]; exists [], []; reflexivity | intros p ps [= <- <-]; exists []; reflexivity].
    - assert (N : x = ESep \/ pieces (x :: l) = match pieces l with p :: ps => (x :: p) :: ps | [] => [[x]] end) by (destruct x; auto). destruct N as [->|N].
      + cbn [pieces]. split; [|intros p ps [= <- <-]; exists (ESep :: l); reflexivity]. intros p [<-|H]; [exists [], (ESep :: l); reflexivity|].
        destruct (IH1 p H) as (a & c & ->). exists (ESep :: a), c. reflexivity.
      + rewrite N. destruct (pieces l) as [|q qs] eqn:E.
        * split; [intros p [<-|[]]; exists [], l; reflexivity | intros p ps [= <- <-]; exists l; reflexivity].
        * destruct (IH2 q qs eq_refl) as [c Hc]. split.
          -- intros p [<-|H]; [exists [], c; rewrite Hc; reflexivity|]. destruct (IH1 p (or_intror H)) as (a & c' & H'). exists (x :: a), c'. rewrite H'. reflexivity.
          -- intros p ps [= <- <-]. exists c. rewrite Hc. reflexivity. }
  apply K.
Qed.
Lemma okruns_pure : forall l p, okruns false p l -> pure (map EA p ++ l).
Proof.
  assert (O : forall p, okrun false p -> intro p = false) by (intros p [H|[H _]]; [exact H | discriminate H]).
  assert (Q : forall p, intro p = false -> pure (map EA p)).
  { intros p H a b c E. assert (X : exists u v, p = u ++ b ++ v).
    { apply map_eq_app in E as (u & v & -> & <- & E). apply map_eq_app in E as (b' & w & -> & E & <-). exists u, w. f_equal. f_equal.
      revert b E. clear. induction b' as [|x b' IH]; intros [|y b] E; try discriminate; [reflexivity|]. cbn in E. injection E as -> E. f_equal. auto. }
    destruct X as (u & v & ->). apply intro_app_false in H as [_ H]. apply intro_app_false in H as [H _]. exact H. }
  assert (S : forall p x l, intro p = false -> (forall r, x <> EA r) -> pure l -> pure (map EA p ++ x :: l)).
  { intros p x l Hp Nx Hl a b c E. destruct b as [|r b]; [reflexivity|].
    assert (D : (exists d, map EA p = a ++ map EA (r :: b) ++ d) \/ (exists d, l = d ++ map EA (r :: b) ++ c)).
    { clear - E Nx. revert a E. induction p as [|y p IH]; intros a E.
      - right. destruct a as [|z a]; [cbn in E; injection E as E _; destruct (Nx r E)|]. cbn [map app] in E. injection E as _ E. exists a. exact E.
      - destruct a as [|z a].
        + left. cbn [map app] in E. injection E as -> E. enough (X : exists d, map EA p = map EA b ++ d) by (destruct X as [d Hd]; exists d; cbn [map app]; now rewrite Hd).
          clear IH. revert b E. induction p as [|y p IH]; intros b E; [destruct b as [|z b]; [exists []; reflexivity | cbn in E; injection E as E _; destruct (Nx z E)]|].
          destruct b as [|z b]; [exists (map EA (y :: p)); reflexivity|]. cbn [map app] in E. injection E as -> E. destruct (IH b E) as [d Hd]. exists d. cbn [map app]. now rewrite Hd.
        + cbn [map app] in E. injection E as <- E. destruct (IH a E) as [[d Hd]|H]; [left; exists d; cbn [map app]; now rewrite Hd | right; exact H]. }
    destruct D as [[d D]|[d D]]; [exact (Q p Hp _ _ _ D) | exact (Hl _ _ _ D)]. }
  induction l as [|x l IH]; intros p H.
  - rewrite app_nil_r. apply Q, O, H.
  - destruct x; cbn [okruns] in H; try (destruct H as [H1 H2]; apply S; [apply O, H1 | discriminate | exact (IH [] H2)]).
    specialize (IH _ H). rewrite map_app, <- app_assoc in IH. exact IH.
Qed.
Lemma scan_pure x : intro x = false -> pure (scan x).
Proof. intros H. apply (okruns_pure _ []), okruns_scan, H. Qed.

Lemma split_none p : intro p = false -> enc_split p = ([], p).
Proof.
  intros H. unfold enc_split. destruct p as [|r p]; [reflexivity|]. cbn [Datatypes.length enc_leading]. unfold enc_head. destruct p as [|r2 p]; [reflexivity|].
  cbn [intro] in H. apply orb_false_iff in H as [H _]. now rewrite H.
Qed.
Lemma lows_app a b : to_lower (a ++ b) = to_lower a ++ to_lower b.
Proof. apply map_app. Qed.
Lemma lows_nil a : to_lower a = [] -> a = [].
Proof. destruct a; [reflexivity | discriminate]. Qed.
Lemma glue_low n u v : glue (to_lower n) u (to_lower v) = to_lower (glue n u v).
Proof. unfold glue. destruct u; [now rewrite lows_app|]. destruct n as [|c n]; [reflexivity|]. rewrite !lows_app. reflexivity. Qed.

Section READER.
Variable rd : charset_reader.
Definition lowst (st : nstate) : nstate := (to_lower (fst (fst st)), snd (fst st), snd st).
Lemma flush_low st p : intro p = false -> flush rd (lowst st) (to_lower p) = lowst (flush rd st p).
Proof.
  intros H. destruct p as [|r p]; [reflexivity|]. destruct st as [[n u] pe]. unfold flush. cbn [to_lower map]. change (lower_byte r :: map lower_byte p) with (to_lower (r :: p)).
  rewrite (split_none (r :: p) H), split_none by (rewrite intro_low; exact H). cbn [lowst fst snd]. rewrite encode_low, glue_low. reflexivity.
Qed.
Lemma nitem_low st x : nitem (lowst st) (lowE x) = lowst (nitem st x).
Proof.
  destruct st as [[n u] pe]. destruct x; try reflexivity; cbn [nitem lowE lowst fst snd]; unfold lowst; cbn [fst snd].
  - rewrite encode1_low, lows_app. reflexivity.
  - rewrite encode_low, glue_low. reflexivity.
Qed.
Lemma pure_run p l : pure (map EA p ++ l) -> intro p = false.
Proof. intros H. apply (H [] p l). reflexivity. Qed.
Lemma pure_next p x l : pure (map EA p ++ x :: l) -> pure l.
Proof. intros H. apply (pure_end (map EA p ++ [x])). now rewrite <- app_assoc. Qed.
Lemma names_low l : forall st p, pure (map EA p ++ l) -> names rd (lowst st) (to_lower p) (lowL l) = to_lower (names rd st p l).
Proof.
  induction l as [|x l IH]; intros st p H.
  - cbn [lowL map names]. rewrite flush_low by (apply (pure_run p []); exact H). destruct (flush rd st p) as [[n u] pe]. reflexivity.
  - pose proof (pure_run _ _ H) as R. pose proof (pure_next _ _ _ H) as Nx.
    assert (K : names rd (nitem (flush rd (lowst st) (to_lower p)) (lowE x)) [] (lowL l) = to_lower (names rd (nitem (flush rd st p) x) [] l)).
    { rewrite flush_low by exact R. rewrite nitem_low. apply (IH _ []). exact Nx. }
    destruct x; try exact K. cbn [lowL map lowE names]. change (map lowE l) with (lowL l). rewrite <- IH; [now rewrite lows_app|].
    rewrite map_app, <- app_assoc. exact H.
Qed.
Lemma name_low l : pure l -> name_of rd (lowL l) = to_lower (name_of rd l).
Proof. intros H. apply (names_low l ([], false, false) [] H). Qed.
Lemma run_value_low p : intro p = false -> run_value rd (to_lower p) = to_lower (run_value rd p).
Proof.
  intros H. unfold run_value, enc_words. rewrite (split_none p H), split_none by (rewrite intro_low; exact H). apply encode_low.
Qed.
Lemma decoded_low l : forall p, pure (map EA p ++ l) -> decoded rd (to_lower p) (lowL l) = to_lower (decoded rd p l).
Proof.
  induction l as [|x l IH]; intros p H.
  - apply run_value_low. apply (pure_run p []). exact H.
  - pose proof (pure_run _ _ H) as R. pose proof (pure_next _ _ _ H) as Nx.
    assert (K : run_value rd (to_lower p) ++ ScanSpec.plain (lowE x) ++ decoded rd [] (lowL l) = to_lower (run_value rd p ++ ScanSpec.plain x ++ decoded rd [] l)).
    { rewrite run_value_low by exact R. rewrite plain_low, !lows_app. do 2 f_equal. apply (IH []). exact Nx. }
    destruct x; try exact K. cbn [lowL map lowE decoded]. change (map lowE l) with (lowL l). rewrite <- IH; [now rewrite lows_app|].
    rewrite map_app, <- app_assoc. exact H.
Qed.
Lemma local_low l : pure l -> local_of rd (lowL l) = to_lower (local_of rd l).
Proof. intros H. unfold local_of. rewrite trim_low, dotty_low. destruct (forallb dotty (trim l)); [apply flat_low | exact (decoded_low l [] H)]. Qed.
Lemma spec_low l : pure l -> spec_of rd (lowL l) = to_lower (spec_of rd l).
Proof.
  intros H. unfold spec_of. rewrite cut_low by lia. destruct (cut 64 l) as [[a b]|] eqn:E; [|reflexivity]. cbn [option_map low2 fst snd].
  apply (pure_cut _ _ _ _ H) in E as [Ha Hb]. rewrite local_low by exact Ha. rewrite flat_low, !lows_app. reflexivity.
Qed.
Lemma angle_low l : pure l -> angle_of rd (lowL l) = to_lower (angle_of rd l).
Proof.
  intros H. unfold angle_of. rewrite drop_low, spec_low by exact H. destruct (drop_gaps l) as [|x d]; [reflexivity|]. cbn [lowL map]. destruct x; try reflexivity.
  cbn [lowE]. rewrite !lower_eqb by lia. destruct ((r =? 64) || (r =? 44))%N; [|reflexivity]. change (map lowE) with lowL. rewrite cut_low by lia.
  destruct (cut 58 l) as [[a b]|] eqn:E; [|reflexivity]. cbn [option_map low2 fst snd]. apply spec_low. now apply (pure_cut _ _ _ _ H) in E.
Qed.
Lemma mailbox_low l : pure l -> mailbox_of rd (lowL l) = low_addr (mailbox_of rd l).
Proof.
  intros H. unfold mailbox_of. rewrite cut_low by lia. destruct (cut 60 l) as [[n m]|] eqn:E; cbn [option_map low2 fst snd].
  - apply (pure_cut _ _ _ _ H) in E as [Hn Hm]. rewrite cut_low by lia. unfold low_addr. cbn [a_name a_address]. rewrite name_low by exact Hn. f_equal.
    destruct (cut 62 m) as [[i j]|] eqn:E2; [|reflexivity]. cbn [option_map low2 fst snd]. apply angle_low. now apply (pure_cut _ _ _ _ Hm) in E2.
  - unfold low_addr. cbn [a_name a_address]. now rewrite spec_low.
Qed.
Lemma element_low l : pure l -> element rd (lowL l) = map low_addr (element rd l).
Proof.
  intros H. unfold element. rewrite ungroup_low, gaps_low. destruct (gaps (ungroup l)); [reflexivity|]. cbn [map]. rewrite mailbox_low; [reflexivity | now apply pure_ungroup].
Qed.
Lemma addresses_low x : intro x = false -> addresses_of rd (to_lower x) = map low_addr (addresses_of rd x).
Proof.
  intros H. unfold addresses_of, elements. rewrite scan_low, pieces_low. pose proof (scan_pure x H) as P.
  assert (K : forall p, In p (pieces (scan x)) -> pure p) by (intros p Hp; apply pieces_part in Hp as (a & c & E); rewrite E in P; exact (pure_part _ _ _ P)).
  induction (pieces (scan x)) as [|p ps IH]; [reflexivity|]. cbn [map flat_map]. rewrite element_low by (apply K; now left). rewrite map_app. f_equal. apply IH. intros q Hq. apply K. now right.
Qed.
End READER.

(** ** Quotes *)
Lemma in_low k q : (k < 65 \/ 122 < k \/ 90 < k < 97) -> (In k (to_lower q) <-> In k q).
Proof.
  intros Hk. induction q as [|r q IH]; [reflexivity|]. cbn [to_lower map In]. rewrite <- IH. pose proof (lower_eqb k r Hk) as E.
  split; (intros [H|H]; [left | right; exact H]); [apply N.eqb_eq; rewrite <- E | apply N.eqb_eq; rewrite E]; now apply N.eqb_eq.
Qed.
Lemma exists_low r l : Forall (fun k => k < 65 \/ 122 < k \/ 90 < k < 97) l -> existsb (N.eqb (lower_byte r)) l = existsb (N.eqb r) l.
Proof. induction 1 as [|k l Hk _ IH]; [reflexivity|]. cbn [existsb]. now rewrite IH, lower_eqb. Qed.
Lemma at_end_low x : at_end (to_lower x) = at_end x.
Proof.
  unfold at_end. induction x as [|r x IH]; [reflexivity|]. cbn [to_lower map after_space]. rewrite ws_low. destruct (ws r); [exact IH|].
  apply exists_low. repeat constructor; lia.
Qed.
Lemma loose_low x : forall b, loose b (to_lower x) = loose b x.
Proof.
  induction x as [|r x IH]; intros b; [reflexivity|]. cbn [to_lower map loose]. change (map lower_byte x) with (to_lower x).
  rewrite at_end_low, IH, lower_eqb by lia. rewrite exists_low by (repeat constructor; lia). reflexivity.
Qed.
Lemma plain_mode_low m : plain_mode (lowM m) = plain_mode m.
Proof. destruct m; reflexivity. Qed.
Lemma ends_low l (q : list rune) : Forall (fun k => k < 65 \/ 122 < k \/ 90 < k < 97) l -> ends_with l (to_lower q) = ends_with l q.
Proof.
  intros H. unfold ends_with. change (@rev rune (to_lower q)) with (rev (map lower_byte q)). rewrite <- (map_rev lower_byte q). change (@rev rune q) with (@rev byte q).
  destruct (@rev byte q) as [|r t]; [reflexivity|]. cbn [map]. now apply exists_low.
Qed.
Lemma snoc_low q r : to_lower q ++ [lower_byte r] = to_lower (q ++ [r]).
Proof. now rewrite lows_app. Qed.
Lemma regular_low x : forall m q, regular_from (lowM m) (to_lower q) (to_lower x) = regular_from m q x.
Proof.
  induction x as [|r x IH]; intros m q; [destruct m; reflexivity|].
  change (to_lower (r :: x)) with (lower_byte r :: to_lower x).
  assert (S : fst (step (lowM m) (lower_byte r)) = lowM (fst (step m r))) by (rewrite step_low; reflexivity).
  assert (I : forall q', regular_from (lowM (fst (step m r))) (to_lower q') (to_lower x) = regular_from (fst (step m r)) q' x) by (intros q'; apply IH).
  pose proof (I [] : regular_from (lowM (fst (step m r))) (@nil rune) (to_lower x) = regular_from (fst (step m r)) (@nil rune) x) as I0.
  assert (P : plain_mode (fst (run (MN false) (to_lower q))) = plain_mode (fst (run (MN false) q))).
  { change (MN false) with (lowM (MN false)) at 1. rewrite run_low. apply plain_mode_low. }
  destruct m as [a|a n|a n|a acc p|a acc p|a acc]; cbn [lowM] in S |- *; cbn [regular_from]; cbv zeta; rewrite S; rewrite ?I0, ?snoc_low, ?I, ?intro_low, ?P, ?lower_eqb by lia; try reflexivity.
  rewrite ends_low by (repeat constructor; lia). reflexivity.
Qed.
Lemma paired_low x : paired (to_lower x) <-> paired x.
Proof.
  unfold paired, regular. rewrite loose_low, !in_low by lia. change (MN false) with (lowM (MN false)) at 1. change (@nil rune) with (to_lower []) at 1. rewrite regular_low. reflexivity.
Qed.

Lemma kept_low s : kept (to_lower s) = to_lower (kept s).
Proof. unfold kept. now rewrite decode_lower, bmp_lower. Qed.

(** ** Results *)
(** Two texts that differ only in the case of ASCII letters give, where no encoded word begins in
    them, the same addresses up to the case of ASCII letters. *)
Theorem C77_results : forall e s1 s2 l1, to_lower s1 = to_lower s2 ->
  ParseAddressList e s1 = Ret l1 None -> paired (kept s1) -> intro (kept s1) = false ->
  exists l2, ParseAddressList e s2 = Ret l2 None /\ map low_addr (elems l1) = map low_addr (elems l2).
Proof.
  intros e s1 s2 l1 E R1 P1 N1.
  destruct (C77_acceptance e s1 s2 E) as [(l1' & l2 & _ & R2)|[R _]]; [|congruence].
  assert (K : to_lower (kept s1) = to_lower (kept s2)) by now rewrite <- !kept_low, E.
  assert (P2 : paired (kept s2)) by (apply paired_low; rewrite <- K; now apply paired_low).
  assert (N2 : intro (kept s2) = false) by (rewrite <- intro_low, <- K, intro_low; exact N1).
  exists l2. split; [exact R2|].
  rewrite (C47_without_encoded_words e s1 l1 R1 P1 N1), (C47_without_encoded_words e s2 l2 R2 P2 N2).
  rewrite <- !addresses_low by assumption. now rewrite K.
Qed.

(** Putting the text in lower case puts the addresses in lower case. *)
Theorem C77_lowered : forall e s l, ParseAddressList e s = Ret l None -> paired (kept s) -> intro (kept s) = false ->
  exists l2, ParseAddressList e (to_lower s) = Ret l2 None /\ elems l2 = map low_addr (elems l).
Proof.
  intros e s l R P N.
  destruct (C77_acceptance e s (to_lower s)) as [(l1' & l2 & _ & R2)|[X _]]; [symmetry; apply lower_idem | | congruence].
  exists l2. split; [exact R2|].
  rewrite (C47_without_encoded_words e _ l2 R2), (C47_without_encoded_words e s l R P N); rewrite kept_low;
    [now apply addresses_low | now apply paired_low | now rewrite intro_low].
Qed.

Example C77_met : let s1 := bs "Bob ""O'Neil"" <Bob@EXAMPLE.Com>, G: a@B;" in let s2 := bs "bOB ""o'NEIL"" <bob@example.com>, g: A@b;" in
  to_lower s1 = to_lower s2 /\ paired (kept s1) /\ intro (kept s1) = false /\
  (exists l, ParseAddressList env0 s1 = Ret l None /\ elems l = [mkAddr (bs "Bob O'Neil") (bs "Bob@EXAMPLE.Com"); mkAddr [] (bs "a@B")]) /\
  (exists l, ParseAddressList env0 s2 = Ret l None /\ elems l = [mkAddr (bs "bOB o'NEIL") (bs "bob@example.com"); mkAddr [] (bs "A@b")]).
Proof.
  cbv zeta. repeat match goal with |- _ /\ _ => split end; try (vm_compute; reflexivity).
  - right. right. left. vm_compute. reflexivity.
  - eexists. split; vm_compute; reflexivity.
  - eexists. split; vm_compute; reflexivity.
Qed.

(** Where an encoded word begins the condition is needed: the case of a letter of base64 matters. *)
Example C77_encoded_words_differ :
  let s1 := bs "=?utf-8?B?YQ==?= <a@b>" in let s2 := bs "=?utf-8?B?yq==?= <a@b>" in
  to_lower s1 = to_lower s2 /\
  exists l1 l2, ParseAddressList env0 s1 = Ret l1 None /\ ParseAddressList env0 s2 = Ret l2 None /\ map low_addr (elems l1) <> map low_addr (elems l2).
Proof. cbv zeta. split; [vm_compute; reflexivity|]. do 2 eexists. split; [vm_compute; reflexivity|]. split; [vm_compute; reflexivity|]. vm_compute. discriminate. Qed.
