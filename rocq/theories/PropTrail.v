(** C64, continued: a gap after a list does not change its addresses. *)
From Coq Require Import String List NArith ZArith Bool Arith Lia Setoid Morphisms.
From Verif Require Import Lexer Grammar Utf8 Strs Mime GoTime Parser Walker Api Spec ParserFacts
  WalkerFacts Static Total Cfws LangFacts LexFacts Utf8Facts First DateSpec AddrSpec Chosen AddrSem CharFacts PropApi PropInv PropDate
  ScanSpec ScanFacts ScanEnc ScanWords ScanName ScanAddr ScanBox ScanList ScanPhase PropScan AddrText MboxList TextLang EncText EncConv PropStable DateAccept AcceptText AcceptFacts PropAccept Lead PropLead.
Import ListNotations.
Local Open Scope text_scope.

Lemma gap_runs g : ogap g -> exists k, forall a, runs_to (MN a) g (MN a) (repeat EG k).
Proof.
  intros H. pose proof (proj2 (cl_gap g) H) as C. destruct C as [B C].
  assert (L : Forall lexed (toks g)) by (apply toks_lexed_bmp; exact B).
  destruct (gapw_cfws (toks g) C L) as (k & K & _). exists k. intros a. specialize (K a). rewrite rs_toks in K. exact K.
Qed.

(** ** The side conditions carry over *)
Lemma regular_join u g : regular_from (MN false) [] g = true -> forall m q, regular_from m q u = true -> regular_from m q (u ++ g) = true.
Proof.
  intros G. induction u as [|r u IH]; intros m q H.
  - cbn [app]. destruct m as [[|]| | | | |]; try discriminate H. rewrite regular_MN. exact G.
  - cbn [app regular_from] in *. destruct m as [a|a n|a n|a acc pend|a acc pend|a acc].
    1-3,6: apply andb_true_iff in H as [H1 H2]; rewrite H1; exact (IH _ _ H2).
    + destruct (r =? 34)%N; apply andb_true_iff in H as [H1 H2]; rewrite H1; exact (IH _ _ H2).
    + apply andb_true_iff in H as [H1 H2]; rewrite H1; exact (IH _ _ H2).
Qed.

Lemma regular_gap g : ~ In 34%N g -> forall m k q, outside m = true -> runs_to m g (MN false) (repeat EG k) -> regular_from m q g = true.
Proof.
  induction g as [|r g IH]; intros N m k q O R.
  - injection R as -> _. reflexivity.
  - assert (N1 : (r =? 34)%N = false) by (apply N.eqb_neq; intros ->; apply N; now left).
    assert (N2 : ~ In 34%N g) by (intros ?; apply N; now right).
    assert (T : exists k', runs_to (fst (step m r)) g (MN false) (repeat EG k') /\ exists j, snd (step m r) = repeat EG j).
    { unfold runs_to in R. cbn [run] in R. destruct (step m r) as [m1 e1] eqn:S1. cbn [fst snd]. destruct (run m1 g) as [m2 e2] eqn:S2. injection R as -> E.
      assert (F : Forall (eq EG) (e1 ++ e2)) by (rewrite E; clear; induction k; constructor; auto).
      apply Forall_app in F as [F1 F2]. assert (Q : forall e, Forall (eq EG) e -> e = repeat EG (length e)) by (induction 1 as [|x e <- _ IHe]; [reflexivity | cbn; now rewrite <- IHe]).
      exists (length e2). split; [unfold runs_to; now rewrite S2, <- (Q e2 F2) | exists (length e1); now apply Q]. }
    destruct T as (k' & R' & j & J).
    assert (O' : outside (fst (step m r)) = true).
    { destruct m as [a|a n|a n|a acc pend|a acc pend|a acc]; try discriminate O; cbn [step] in *; rewrite ?N1.
      - repeat match goal with |- context [if ?b then _ else _] => destruct b end; reflexivity.
      - repeat match goal with |- context [if ?b then _ else _] => destruct b end; try reflexivity. destruct n; reflexivity.
      - reflexivity.
      - destruct (r =? 93)%N; reflexivity. }
    pose proof (IH N2 _ k' [] O' R') as V. cbn [regular_from]. destruct m as [a|a n|a n|a acc pend|a acc pend|a acc]; try discriminate O; rewrite V, ?N1; try reflexivity.
    rewrite andb_true_r. destruct (r =? 92)%N eqn:B; [|reflexivity]. apply N.eqb_eq in B. subst r. exfalso. clear - J. vm_compute in J. destruct j; discriminate J.
Qed.

Lemma after_space_app x g r y : after_space x = r :: y -> after_space (x ++ g) = r :: y ++ g.
Proof. induction x as [|c x IH]; [discriminate|]. cbn [app after_space]. destruct (ws c); [exact IH|]. intros [= -> ->]. reflexivity. Qed.

Lemma at_end_app (x g : list rune) : ScanSpec.at_end x = false -> ScanSpec.at_end (x ++ g) = false.
Proof. unfold ScanSpec.at_end. destruct (after_space x) as [|r y] eqn:E; [discriminate|]. now rewrite (after_space_app _ _ _ _ E). Qed.

Lemma loose_none g : ~ In 34%N g -> forall st, loose st g = false.
Proof.
  induction g as [|r g IH]; intros N st; [reflexivity|]. cbn [loose]. rewrite IH by (intros ?; apply N; now right).
  destruct (r =? 34)%N eqn:E; [|reflexivity]. apply N.eqb_eq in E. destruct N. now left.
Qed.

Lemma loose_join g : ~ In 34%N g -> forall u st, loose st u = false -> loose st (u ++ g) = false.
Proof.
  intros N. induction u as [|r u IH]; intros st H; [apply loose_none, N|]. cbn [app loose] in *. apply orb_false_iff in H as [H1 H2].
  rewrite (IH _ H2), orb_false_r. destruct (r =? 34)%N; [|reflexivity]. cbn [andb] in *. apply orb_false_iff in H1 as [-> H1]. cbn [orb]. now apply at_end_app.
Qed.

Lemma paired_join u g : ogap g -> ~ In 34%N g -> ~ In 58%N g -> paired u -> paired (u ++ g).
Proof.
  intros G N1 N2 [P|[P|[P|P]]].
  - left. rewrite in_app_iff. tauto.
  - right. left. rewrite in_app_iff. tauto.
  - right. right. left. apply regular_join; [|exact P]. destruct (gap_runs g G) as (k & K). exact (regular_gap g N1 (MN false) k [] eq_refl (K false)).
  - right. right. right. now apply loose_join.
Qed.

(** ** Scanning a text with a gap at the end *)
Lemma scan_trail rd b w l g : Forall lexed w -> r_list (r_address rd) [T_Comma; T_Semicolon] w l -> paired (rs w) -> tamed b (MN false) (rs w) -> (b = true -> one_fold (rs w)) ->
  ogap g -> addresses_of rd (rs w ++ g) = l.
Proof.
  intros L R NQ K O G. apply (paired_list _ b) in R; [|exact L | exact NQ | exact K | exact O].
  destruct (list_scan rd b false _ [T_Comma; T_Semicolon] (address0_scanned rd b) two_seps w l [] R L eq_refl) as (E & RE & V); [now rewrite app_nil_r | exact O|].
  destruct (gap_runs g G) as (k & GK). pose proof (runs_app _ _ _ _ _ _ _ RE (GK false)) as T. unfold addresses_of. rewrite scan_em, (runs_em _ _ _ _ T). apply (V k).
Qed.

(** Under the conditions of C47 a gap at the end does not change the addresses either, if it contains
    neither double quotes nor colons. *)
Theorem C64_trailing_gap_same_addresses : forall e g s s' l, ogap g -> decode s = decode s' ++ g -> ends_not (white ++ bs "0123456789") (decode s') ->
  ~ In 34%N g -> ~ In 58%N g -> paired (kept s') ->
  no_enc (kept s) \/ (tame (kept s) /\ one_fold (kept s)) ->
  ParseAddressList e s' = Ret l None -> exists l', ParseAddressList e s = Ret l' None /\ elems l' = elems l.
Proof.
  intros e g s s' l G D F N1 N2 P K H. destruct (C64_trailing_gap e g s s' l G D F H) as [l' H']. exists l'. split; [exact H'|].
  pose proof (kept_trail g s s' G D) as KT. assert (NN : s' <> []) by exact (proj2 (ends_final _ _ F)).
  apply reading in H as [L R]; [|exact NN].
  assert (Q : exists b, tamed b (MN false) (kept s') /\ (b = true -> one_fold (kept s'))).
  { rewrite KT in K. destruct K as [K|[K O]]; [exists false | exists true]; (split; [apply (tamed_first _ _ _ g)|]); [now apply no_enc_tamed | discriminate | now apply tame_tamed|].
    intros _. exact (proj1 (one_fold_app _ _ O)). }
  destruct Q as (b & K' & O).
  rewrite (C47_addresses_are_what_the_scanner_reports e s l' H'); [|rewrite KT; now apply paired_join | exact K].
  set (w := toks (kept s')) in *. assert (E : kept s' = rs w) by (symmetry; apply rs_toks). rewrite E in *. clear E. clearbody w.
  rewrite KT. exact (scan_trail _ b w _ g L R P K' O G).
Qed.

Example C64_met_addresses : let s' := bs """A B"" <c@d>, =?utf-8?Q?x?= <e@f>" in let g := bs " (x, y) " in let s := (s' ++ g)%list in
  ogap g /\ decode s = (decode s' ++ g)%list /\ ends_not (white ++ bs "0123456789") (decode s') /\ ~ In 34%N g /\ ~ In 58%N g /\
  paired (kept s') /\ tame (kept s) /\ one_fold (kept s) /\
  ParseAddressList env0 s' = Ret (Some [mkAddr (bs "A B") (bs "c@d"); mkAddr (bs "x") (bs "e@f")]) None.
Proof.
  cbv zeta. split; [|split; [vm_compute; reflexivity|split; [|split; [vm_compute; intuition discriminate|split; [vm_compute; intuition discriminate|split; [|split; [|split]]]]]]].
  - right; right. apply (cs_one (bs " ") (bs "(x, y)") (bs " ")); [right; apply fold_plain; [discriminate | repeat constructor]| |right; apply fold_plain; [discriminate | repeat constructor]].
    exists (bs "x, y"). split; [reflexivity|]. apply (cb_char [] 120%N (bs ", y")); [now left | reflexivity|]. apply (cb_char [] 44%N (bs " y")); [now left | reflexivity|].
    apply (cb_char (bs " ") 121%N []); [right; apply fold_plain; [discriminate | repeat constructor] | reflexivity|]. apply cb_end. now left.
  - exists 62%N, (bs """A B"" <c@d>, =?utf-8?Q?x?= <e@f"). split; [vm_compute; reflexivity|]. split; [vm_compute; discriminate|]. vm_compute. intuition discriminate.
  - right. left. vm_compute. intuition discriminate.
  - apply okruns_tame. vm_compute. intuition.
  - intros p x q E. exfalso. assert (C : ~ In 13%N (kept (bs """A B"" <c@d>, =?utf-8?Q?x?= <e@f>" ++ bs " (x, y) ")%list)) by (vm_compute; intuition discriminate). apply C. rewrite E. rewrite !in_app_iff. right. left. now left.
  - vm_compute. reflexivity.
Qed.
