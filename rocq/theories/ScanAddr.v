(** Local parts, domains, angle addresses and mailboxes: the scanner's reading is the walker's. *)
From Coq Require Import String List NArith ZArith Bool Arith Lia.
From Verif Require Import Lexer Grammar Utf8 Strs Mime GoTime Parser Walker Api Spec ParserFacts
  WalkerFacts Static Cfws LangFacts LexFacts Utf8Facts DateSpec First AddrSpec AddrSem CharFacts ScanSpec ScanFacts ScanEnc ScanWords ScanName.
Import ListNotations.

(** ** Gaps *)
Lemma drop_gaps_repeat k l : drop_gaps (repeat EG k ++ l) = drop_gaps l.
Proof. induction k; [reflexivity | exact IHk]. Qed.

Lemma rev_repeat {A} (x : A) k : rev (repeat x k) = repeat x k.
Proof.
  induction k as [|k IH]; [reflexivity|]. cbn [repeat rev]. rewrite IH. clear. induction k as [|k IH]; [reflexivity|]. cbn. now rewrite IH.
Qed.

Definition core (c : list emit) : Prop := (exists x c', c = x :: c' /\ gap x = false) /\ (exists x c', c = c' ++ [x] /\ gap x = false).

Lemma drop_gaps_head x c : gap x = false -> drop_gaps (x :: c) = x :: c.
Proof. destruct x; cbn; congruence. Qed.

Lemma trim_core k1 c k2 : core c -> trim (repeat EG k1 ++ c ++ repeat EG k2) = c.
Proof.
  intros [(x & c' & -> & H1) (y & c2 & E & H2)]. unfold trim. rewrite drop_gaps_repeat. cbn [app]. rewrite drop_gaps_head by assumption.
  change (x :: c' ++ repeat EG k2) with ((x :: c') ++ repeat EG k2). rewrite rev_app_distr, rev_repeat, drop_gaps_repeat, E, rev_app_distr. cbn [rev app].
  rewrite drop_gaps_head by assumption. cbn [rev]. now rewrite rev_involutive.
Qed.

Lemma core_app c m d : core c -> core d -> core (c ++ m ++ d).
Proof.
  intros [(x & c' & -> & H1) _] [_ (y & d' & -> & H2)]. split; [exists x, (c' ++ m ++ d' ++ [y]) | exists y, ((x :: c') ++ m ++ d')]; (split; [|assumption]).
  - reflexivity.
  - now rewrite <- !app_assoc.
Qed.

Lemma core_atoms x : x <> [] -> core (map EA x).
Proof.
  intros N. split.
  - destruct x as [|r x]; [congruence|]. exists (EA r), (map EA x). auto.
  - destruct (exists_last N) as (x' & r & ->). exists (EA r), (map EA x'). split; [now rewrite map_app | reflexivity].
Qed.

Lemma dotty_gaps k : forallb dotty (repeat EG k) = true -> k = 0.
Proof. destruct k; [reflexivity | discriminate]. Qed.

Lemma flat_gaps k : flat (repeat EG k) = [].
Proof. induction k; [reflexivity | exact IHk]. Qed.

Lemma flat_app a b : flat (a ++ b) = flat a ++ flat b.
Proof. apply flat_map_app. Qed.

Lemma flat_atoms x : flat (map EA x) = encode x.
Proof. unfold flat, encode. induction x as [|r x IH]; [reflexivity|]. cbn [map flat_map plain]. now rewrite IH. Qed.

Lemma flat_dots x : flat (map dote x) = encode x.
Proof. unfold flat, encode. induction x as [|r x IH]; [reflexivity|]. cbn [map flat_map]. rewrite IH. unfold dote. destruct (r =? 46)%N; reflexivity. Qed.

(** ** Decoding *)
Lemma decoded_sep rd x E2 : (match x with EA _ => false | _ => true end) = true ->
  forall E1 p, decoded rd p (E1 ++ x :: E2) = decoded rd p E1 ++ plain x ++ decoded rd [] E2.
Proof.
  intros Hx. induction E1 as [|y E1 IH]; intros p; cbn [app].
  - destruct x; [discriminate|..]; cbn [decoded]; reflexivity.
  - destruct y; cbn [decoded]; rewrite IH; now rewrite <- ?app_assoc.
Qed.

Lemma decoded_atoms rd x : forall p E, decoded rd p (map EA x ++ E) = decoded rd (p ++ x) E.
Proof. induction x as [|r x IH]; intros p E; cbn [map app decoded]; [now rewrite app_nil_r|]. rewrite IH, <- app_assoc. reflexivity. Qed.

Lemma run_value_nil rd : run_value rd [] = [].
Proof. reflexivity. Qed.

Lemma decoded_gaps rd k : forall p E, decoded rd p (repeat EG (S k) ++ E) = run_value rd p ++ decoded rd [] E.
Proof.
  induction k as [|k IH]; intros p E; [reflexivity|]. change (repeat EG (S (S k)) ++ E) with (EG :: repeat EG (S k) ++ E).
  cbn [decoded]. rewrite IH. reflexivity.
Qed.

Lemma decoded_lgaps rd k E : decoded rd [] (repeat EG k ++ E) = decoded rd [] E.
Proof. destruct k; [reflexivity|]. now rewrite decoded_gaps. Qed.

Lemma decoded_tgaps rd k p : decoded rd p (repeat EG k) = run_value rd p.
Proof. destruct k; [reflexivity|]. rewrite <- (app_nil_r (repeat EG (S k))), decoded_gaps. cbn [decoded]. now rewrite run_value_nil, app_nil_r. Qed.

Lemma run_value_more rd p e : encl p -> enc1 e -> run_value rd (p ++ e) = run_value rd p ++ enc_value rd [e].
Proof.
  intros Hp He. unfold run_value. destruct p as [|r p].
  - cbn [app]. pose proof (enc_words_complete [e]) as X. cbn [concat] in X. rewrite app_nil_r in X. rewrite X by (auto || discriminate). reflexivity.
  - destruct (encl_words (r :: p) Hp) as (l & E & Ep & F & N); [discriminate|].
    assert (X : enc_words ((r :: p) ++ e) = Some (l ++ [e])).
    { rewrite Ep. rewrite <- (app_nil_r e) at 1. change (e ++ []) with (concat [e]). rewrite <- concat_app. apply enc_words_complete; [apply Forall_app; auto|].
      destruct l; discriminate. }
    rewrite X, E. apply enc_value_app.
Qed.

Lemma decoded_encE rd E l : encE E l -> forall p, encl p -> decoded rd p E = run_value rd p ++ enc_value rd l.
Proof.
  induction 1 as [|E l H IH|e E l He H IH]; intros p Hp.
  - cbn [decoded enc_value flat_map]. now rewrite app_nil_r.
  - cbn [decoded]. rewrite (IH [] encl_nil). reflexivity.
  - rewrite decoded_atoms, IH by (apply encl_app; [exact Hp | now apply encl_one]). rewrite run_value_more by assumption.
    rewrite <- app_assoc. change (e :: l) with ([e] ++ l). now rewrite enc_value_app.
Qed.

Lemma decoded_word rd k E v : wordE rd k E v -> decoded rd [] E = v.
Proof.
  intros [E' l H N|k1 x k2 _ H|k1 t k2].
  - now rewrite (decoded_encE _ _ _ H [] encl_nil).
  - rewrite decoded_lgaps, decoded_atoms, decoded_tgaps. unfold run_value. cbn [app]. now rewrite H.
  - rewrite decoded_lgaps. cbn [app decoded]. rewrite run_value_nil. cbn [app plain]. rewrite decoded_tgaps, run_value_nil. apply app_nil_r.
Qed.

(** ** Local parts *)
Definition locE (x : emit) : Prop := match x with EA _ | EG | EQ _ => True | ES r => r = 46%N | _ => False end.

Lemma locE_gaps k : Forall locE (repeat EG k).
Proof. apply Forall_forall. intros x H. apply repeat_spec in H. now subst. Qed.
Lemma locE_atoms x : Forall locE (map EA x).
Proof. apply Forall_map. apply Forall_forall. intros. exact I. Qed.
Lemma locE_dots x : Forall locE (map dote x).
Proof. apply Forall_map. apply Forall_forall. intros r _. unfold dote. destruct (N.eqb_spec r 46); [exact e | exact I]. Qed.
Lemma encE_loc E l : encE E l -> Forall locE E.
Proof. induction 1; [constructor | constructor; [exact I | assumption] |]. apply Forall_app. split; [apply locE_atoms | assumption]. Qed.
Lemma wordE_loc rd k E v : wordE rd k E v -> Forall locE E.
Proof.
  intros [E' l H _|k1 x k2 _ _|k1 t k2].
  - now apply encE_loc in H.
  - repeat (apply Forall_app; split); auto using locE_gaps, locE_atoms.
  - repeat (apply Forall_app; split); auto using locE_gaps, locE_atoms. repeat constructor.
Qed.

(** [w] has the emission gaps, core, gaps; if the core has only atom characters and periods, it is
    the emission of a part of [w] that satisfies [G]. *)
Definition shaped (G : list rune -> Prop) (w : word) (E : list emit) : Prop := exists k1 c k2, E = repeat EG k1 ++ c ++ repeat EG k2 /\ core c /\
  (forallb dotty c = true -> exists u x u', w = u ++ x ++ u' /\ opt_cfws u /\ opt_cfws u' /\ G (rs x) /\ (k1 = 0 -> u = []) /\ (k2 = 0 -> u' = [])).

Lemma atom_app x y : atom x -> Forall (fun r => atext_char r = true) y -> atom (x ++ y).
Proof. intros [N H] H'. split; [destruct x; [congruence | discriminate] | apply Forall_app; auto]. Qed.

Lemma enc1_atom e : enc1 e -> atom e.
Proof. intros H. split; [apply enc1_nonnil in H as [z ->]; discriminate | now apply enc1_atext]. Qed.

Lemma atom_dot x y : atom x -> dot_atom y -> dot_atom (x ++ 46%N :: y).
Proof.
  intros Hx (m & N' & H' & E'). exists (x :: m). split; [discriminate|]. split; [auto|]. destruct m as [|z m]; [congruence|].
  change (join (bs ".") (x :: z :: m)) with (x ++ 46%N :: join (bs ".") (z :: m)).
  destruct E' as [-> | ->]; [left; reflexivity | right; now rewrite <- app_assoc].
Qed.

Lemma atom_dot_atom x : atom x -> dot_atom x.
Proof. intros H. exists [x]. split; [discriminate|]. split; [auto|]. left. reflexivity. Qed.

Lemma encs_shaped rd w v : r_encs rd w v -> Forall lexed w -> forall b a x, tamed b (MN a) (rs w ++ x) ->
  exists E, emits w E /\ shaped atom w E.
Proof.
  induction 1 as [u e u' Hu He Hu'|u e u' w v Hu He Hu' Hw IH]; intros L b a x K.
  - apply Forall_app in L as [L1 L]. apply Forall_app in L as [L2 L3].
    destruct (emits_cfws u Hu L1) as (k & R1 & Z1 & _). destruct (emits_cfws u' Hu' L3) as (k' & R3 & Z3 & _).
    rewrite !rs_app, <- !app_assoc in K. apply (tamed_emits _ _ _ _ _ R1) in K.
    destruct (T_enc _ _ _ _ L2 He K) as (Hb & E1).
    exists (repeat EG k ++ map EA (rs e) ++ repeat EG k'). split; [auto using emits_app, emits_enc|].
    exists k, (map EA (rs e)), k'. split; [reflexivity|]. pose proof (enc1_atom _ E1) as A. split; [apply core_atoms, A|].
    intros _. exists u, e, u'. auto 7.
  - apply Forall_app in L as [L1 L]. apply Forall_app in L as [L2 L]. apply Forall_app in L as [L3 L4].
    destruct (emits_cfws u Hu L1) as (k & R1 & Z1 & _). destruct (emits_cfws u' Hu' L3) as (k' & R3 & Z3 & _).
    rewrite !rs_app, <- !app_assoc in K. apply (tamed_emits _ _ _ _ _ R1) in K.
    destruct (T_enc _ _ _ _ L2 He K) as (Hb & E1). pose proof (enc1_atom _ E1) as A.
    apply (tamed_emits _ _ _ _ _ (emits_enc e E1)) in K. apply (tamed_emits _ _ _ _ _ R3) in K.
    destruct (IH L4 _ _ _ K) as (E & RE & j1 & c & j2 & -> & Hc & HT).
    exists (repeat EG k ++ map EA (rs e) ++ repeat EG k' ++ repeat EG j1 ++ c ++ repeat EG j2). split; [auto using emits_app, emits_enc|].
    exists k, (map EA (rs e) ++ (repeat EG k' ++ repeat EG j1) ++ c), j2.
    split; [now rewrite <- !app_assoc|]. split; [apply core_app; [apply core_atoms, A | exact Hc]|].
    rewrite !forallb_app, !andb_true_iff. intros (_ & (D1 & D2) & D3). apply dotty_gaps in D1, D2. subst k' j1.
    destruct (HT D3) as (u2 & x2 & u2' & -> & H1 & H2 & H3 & H4 & H5). rewrite (H4 eq_refl), (Z3 eq_refl).
    exists u, (e ++ x2), u2'. split; [cbn [app]; now rewrite <- !app_assoc|]. repeat (split; [assumption|]). split; [|auto].
    rewrite rs_app. apply atom_app; [exact A | apply H3].
Qed.

Lemma word_shaped rd kd w v : r_word rd kd w v -> Forall lexed w ->
  (kd = KEnc -> exists b a x, tamed b (MN a) (rs w ++ x)) -> exists E, emits w E /\ shaped atom w E /\ wordE rd kd E v.
Proof.
  intros Hw L K. destruct (word_em rd kd w v Hw L K) as (E & R & HE). exists E. split; [exact R|]. split; [|exact HE].
  destruct Hw as [w0 v0 H|u a u' Hu Ha Hu' N|u q u' v0 Hu Hq Hu'].
  - destruct (K eq_refl) as (b & a & x & K'). destruct (encs_shaped _ _ _ H L _ _ _ K') as (E' & R' & S).
    now rewrite (emits_fun _ _ _ R R').
  - apply Forall_app in L as [L1 L]. apply Forall_app in L as [L2 L3].
    destruct (emits_cfws u Hu L1) as (k & R1 & Z1 & Y1). destruct (emits_cfws u' Hu' L3) as (k' & R3 & Z3 & Y3).
    pose proof (lang_atom a L2 Ha) as A. fold (rs a) in A.
    assert (R' : emits (u ++ a ++ u') (repeat EG k ++ map EA (rs a) ++ repeat EG k')) by (apply emits_app; [exact R1|]; apply emits_app; [|exact R3]; apply emits_atom; [exact L2 | apply A]).
    rewrite (emits_fun _ _ _ R R'). exists k, (map EA (rs a)), k'. split; [reflexivity|]. split; [apply core_atoms, A|]. intros _. exists u, a, u'. auto 7.
  - apply Forall_app in L as [L1 L]. apply Forall_app in L as [L2 L3].
    destruct (emits_cfws u Hu L1) as (k & R1 & _). destruct (emits_cfws u' Hu' L3) as (k' & R3 & _).
    destruct (runs_qstring q v0 Hq L2) as (t & -> & _ & Rq).
    assert (R' : emits (u ++ q ++ u') (repeat EG k ++ [EQ t] ++ repeat EG k')) by (apply emits_app; [exact R1|]; apply emits_app; [exact Rq | exact R3]).
    rewrite (emits_fun _ _ _ R R'). exists k, [EQ t], k'. split; [reflexivity|]. split; [|discriminate]. split; [exists (EQ t), [] | exists (EQ t), []]; auto.
Qed.

Lemma obslocal_scan rd w l : r_obslocal rd w l -> Forall lexed w -> forall b a x, tamed b (MN a) (rs w ++ x) ->
  exists E, emits w E /\ shaped dot_atom w E /\ decoded rd [] E = join (bs ".") l /\ Forall locE E.
Proof.
  induction 1 as [k w v Hw|k w v p w' l Hw Hp Hl IH]; intros L b a x K.
  - destruct (word_shaped _ _ _ _ Hw L) as (E & R & (k1 & c & k2 & -> & Hc & HT) & HE); [intros _; exists b, a, x; exact K|].
    exists (repeat EG k1 ++ c ++ repeat EG k2). split; [exact R|]. split; [|split; [now rewrite (decoded_word _ _ _ _ HE) | now apply wordE_loc in HE]].
    exists k1, c, k2. split; [reflexivity|]. split; [exact Hc|]. intros D. destruct (HT D) as (u & y & u' & H1 & H2 & H3 & H4 & H5).
    exists u, y, u'. repeat (split; [assumption|]). split; [now apply atom_dot_atom | exact H5].
  - apply Forall_app in L as [L1 L]. inversion L as [|? ? Lp L2]; subst.
    rewrite rs_app, rs_cons, <- app_assoc in K. cbn [app] in K.
    destruct (word_shaped _ _ _ _ Hw L1) as (E & R & (k1 & c & k2 & -> & Hc & HT) & HE); [intros _; exists b, a, (tr p :: rs w' ++ x); exact K|].
    apply (tamed_emits _ _ _ _ _ R) in K. tokc p 46%N.
    assert (K' : tamed b (MN a) (rs w' ++ x)) by exact (tamed_next b (MN a) [46%N] (rs w' ++ x) K).
    destruct (IH L2 b a x K') as (E2 & R2 & (j1 & d & j2 & -> & Hd & HT') & D2 & F2).
    assert (Rp : emits [p] [ES 46%N]) by (intros a'; unfold rs; cbn [map]; rewrite H; reflexivity).
    set (E1 := repeat EG k1 ++ c ++ repeat EG k2) in *. set (E2 := repeat EG j1 ++ d ++ repeat EG j2) in *.
    exists (E1 ++ ES 46%N :: E2). split; [change (p :: w') with ([p] ++ w'); change (ES 46%N :: E2) with ([ES 46%N] ++ E2); auto using emits_app|]. split; [|split].
    + exists k1, (c ++ (repeat EG k2 ++ [ES 46%N] ++ repeat EG j1) ++ d), j2. split; [unfold E1, E2; now repeat (rewrite <- app_assoc; cbn [app])|].
      split; [now apply core_app|]. rewrite !forallb_app, !andb_true_iff. intros (D & (G1 & _ & G2) & D').
      apply dotty_gaps in G1, G2. subst k2 j1. destruct (HT D) as (u & y & u' & -> & H1 & H2 & H3 & H4 & H5).
      destruct (HT' D') as (u2 & y2 & u2' & -> & H1' & H2' & H3' & H4' & H5'). rewrite (H5 eq_refl), (H4' eq_refl).
      exists u, (y ++ p :: y2), u2'. split; [rewrite app_nil_r; cbn [app]; now repeat (rewrite <- app_assoc; cbn [app])|]. repeat (split; [assumption|]). split; [|auto].
      rewrite rs_app, rs_cons, H. now apply atom_dot.
    + rewrite decoded_sep by reflexivity. rewrite (decoded_word _ _ _ _ HE), D2. cbn [plain]. change (encode1 46%N) with (bs ".").
      destruct Hl; reflexivity.
    + apply Forall_app. split; [now apply wordE_loc in HE|]. constructor; [reflexivity | exact F2].
Qed.

Lemma dotty_dots x : forallb dotty (map dote x) = true.
Proof. apply forallb_forall. intros e He. apply in_map_iff in He as (r & <- & _). unfold dote. destruct (r =? 46)%N eqn:E; [exact E | reflexivity]. Qed.

Lemma core_dots x : x <> [] -> core (map dote x).
Proof.
  intros N. assert (G : forall r, gap (dote r) = false) by (intros r; unfold dote; destruct (r =? 46)%N; reflexivity). split.
  - destruct x as [|r x]; [congruence|]. exists (dote r), (map dote x). auto.
  - destruct (exists_last N) as (x' & r & ->). exists (dote r), (map dote x'). split; [now rewrite map_app | apply G].
Qed.

Lemma emits_adots x : Forall (fun r => adot r = true) (rs x) -> emits x (map dote (rs x)).
Proof. intros H a. now apply runs_adots. Qed.

Lemma local_scan rd w v : r_local rd w v -> Forall lexed w -> forall b a x, tamed b (MN a) (rs w ++ x) ->
  exists E, emits w E /\ (forall k, local_of rd (repeat EG k ++ E) = v) /\ Forall locE E /\ (exists k1 c k2, E = repeat EG k1 ++ c ++ repeat EG k2 /\ core c).
Proof.
  intros [u d u' Hu Hd Hu'|u q u' v0 Hu Hq Hu'|w0 l Hl Nl] L b a x K.
  - apply Forall_app in L as [L1 L]. apply Forall_app in L as [L2 L3].
    destruct (emits_cfws u Hu L1) as (k & R1 & _). destruct (emits_cfws u' Hu' L3) as (k' & R3 & _).
    pose proof (lang_dotAtom d L2 Hd) as D. fold (rs d) in D.
    assert (Nd : rs d <> []) by (apply dot_atom_head in D as (r & d' & E & _); rewrite E; discriminate).
    exists (repeat EG k ++ map dote (rs d) ++ repeat EG k').
    split; [apply emits_app; [exact R1|]; apply emits_app; [|exact R3]; apply emits_adots, dot_atom_adot, D|].
    split; [|split; [repeat (apply Forall_app; split); auto using locE_gaps, locE_dots | exists k, (map dote (rs d)), k'; auto using core_dots]].
    intros j. unfold local_of. rewrite app_assoc, <- repeat_app, trim_core by now apply core_dots. rewrite dotty_dots.
    rewrite !flat_app, !flat_gaps, flat_dots, text_lexed by assumption. cbn [app]. now rewrite app_nil_r.
  - apply Forall_app in L as [L1 L]. apply Forall_app in L as [L2 L3].
    destruct (emits_cfws u Hu L1) as (k & R1 & _). destruct (emits_cfws u' Hu' L3) as (k' & R3 & _).
    destruct (runs_qstring q v0 Hq L2) as (t & -> & _ & Rq).
    assert (Hc : core [EQ t]) by (split; [exists (EQ t), [] | exists (EQ t), []]; auto).
    exists (repeat EG k ++ [EQ t] ++ repeat EG k').
    split; [apply emits_app; [exact R1|]; apply emits_app; [exact Rq | exact R3]|].
    split; [|split; [repeat (apply Forall_app; split); auto using locE_gaps; repeat constructor | exists k, [EQ t], k'; auto]].
    intros j. unfold local_of. rewrite app_assoc, <- repeat_app, trim_core by exact Hc. cbn [forallb dotty andb].
    rewrite (decoded_word rd KQuo (repeat EG (j + k) ++ [EQ t] ++ repeat EG k') (encode t)); [reflexivity | constructor].
  - destruct (obslocal_scan rd w0 l Hl L b a x K) as (E & R & (k1 & c & k2 & -> & Hc & HT) & D & F).
    exists (repeat EG k1 ++ c ++ repeat EG k2). split; [exact R|]. split; [|split; [exact F | eauto]].
    intros j. unfold local_of. rewrite app_assoc, <- repeat_app, trim_core by exact Hc. destruct (forallb dotty c) eqn:E.
    + exfalso. apply Nl. destruct (HT eq_refl) as (u & y & u' & -> & H1 & H2 & H3 & _). apply Forall_app in L as [L1 L]. apply Forall_app in L as [L2 L3].
      apply lang_seq_i; [exact H1|]. apply lang_seq_i; [|exact H2]. rewrite (lexed_toks y L2). now apply lang_dotAtom_i.
    + rewrite repeat_app, <- app_assoc, decoded_lgaps. exact D.
Qed.
