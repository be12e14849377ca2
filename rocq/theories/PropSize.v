(** C54: the results are not much longer than the input. *)
From Coq Require Import String List NArith ZArith Bool Arith Lia ZifyN ZifyBool Zify.
From Verif Require Import Lexer Grammar Utf8 Strs Mime GoTime Parser Walker Api Spec ParserFacts
  WalkerFacts Static Total Cfws LangFacts LexFacts Utf8Facts First DateSpec AddrSpec Chosen AddrSem CharFacts PropApi PropInv EncSel AddrText PropStable.
Import ListNotations.

(** the number of bytes of all names and addresses *)
Definition size_of (l : list addr) : nat := list_sum (map (fun a => length (a_name a) + length (a_address a)) l).

(** What CharsetReader returns is at most three times as long as what it reads. *)
Definition moderate (rd : charset_reader) : Prop :=
  forall f c x y, rd = Some f -> f c x = Some y -> length y <= 3 * length x.

Lemma encode1_size r : bmp r = true -> length (encode1 r) <= 3.
Proof.
  intros H. unfold bmp in H. unfold encode1. destruct (r <? 128)%N; [cbn; lia|]. destruct (r <? 2048)%N; [cbn; lia|]. destruct (_ || _)%bool; [cbn; lia|].
  destruct (N.ltb_spec r 65536); [cbn [length]; lia|]. lia.
Qed.

(** * Encoded words *)

Lemma q_decode_size s : forall v, q_decode s = Some v -> length v <= length s.
Proof.
  remember (length s) as n eqn:L. revert s L. induction n as [n IH] using lt_wf_ind. intros s L v H. destruct s as [|c s]; [injection H as <-; cbn; lia|]. cbn [q_decode] in H.
  assert (X : forall k s', length s' < length (c :: s) -> option_map (cons k) (q_decode s') = Some v -> length v <= n).
  { intros k s' K E. destruct (q_decode s') as [v'|] eqn:Q; [|discriminate E]. injection E as <-. specialize (IH (length s') ltac:(lia) s' eq_refl v' Q). cbn [length]. lia. }
  destruct (c =? 95)%N; [exact (X _ s ltac:(cbn [length]; lia) H)|]. destruct (c =? 61)%N.
  - destruct s as [|h [|l s]]; try discriminate H. destruct (from_hex h); [|discriminate H]. destruct (from_hex l); [|discriminate H]. exact (X _ s ltac:(cbn [length]; lia) H).
  - destruct (_ || _)%bool; [|discriminate H]. exact (X _ s ltac:(cbn [length]; lia) H).
Qed.

Lemma b64_decode_size s : forall v, b64_decode s = Some v -> length v <= length s.
Proof.
  remember (length s) as n eqn:L. revert s L. induction n as [n IH] using lt_wf_ind. intros s L v H.
  destruct s as [|c0 [|c1 [|c2 [|c3 s]]]]; try discriminate H; [injection H as <-; cbn; lia|]. cbn [b64_decode] in H.
  destruct (b64_val c0); [|discriminate H]. destruct (b64_val c1); [|discriminate H]. destruct (c2 =? 61)%N.
  - destruct (c3 =? 61)%N; [|discriminate H]. destruct s; [|discriminate H]. injection H as <-. cbn [length] in *. lia.
  - destruct (b64_val c2); [|discriminate H]. destruct (c3 =? 61)%N; [destruct s; [|discriminate H]; injection H as <-; cbn [length] in *; lia|].
    destruct (b64_val c3); [|discriminate H]. destruct (b64_decode s) as [v'|] eqn:Q; [|discriminate H]. injection H as <-.
    specialize (IH (length s) ltac:(cbn [length] in L; lia) s eq_refl v' Q). cbn [length] in *. lia.
Qed.

Lemma content_size enc s v : decode_content enc s = Some v -> length v <= length s.
Proof. unfold decode_content. destruct (_ || _)%bool; [apply b64_decode_size|]. destruct (_ || _)%bool; [apply q_decode_size | discriminate]. Qed.

Lemma flat_size {A B} (f : A -> list B) k l : (forall x, In x l -> length (f x) <= k) -> length (flat_map f l) <= k * length l.
Proof. intros H. induction l as [|x l IH]; [cbn; lia|]. cbn [flat_map length]. rewrite app_length. pose proof (H x (or_introl eq_refl)). specialize (IH (fun y Hy => H y (or_intror Hy))). lia. Qed.

Lemma latin_size (x : gostring) : Forall (fun b => b < 256)%N x -> length (flat_map encode1 x) <= 3 * length x.
Proof. intros H. apply flat_size. intros b Hb. rewrite Forall_forall in H. apply encode1_size. unfold bmp. specialize (H _ Hb). lia. Qed.

Lemma q_decode_byte s : forall v, Forall (fun b => b < 256)%N s -> q_decode s = Some v -> Forall (fun b => b < 256)%N v.
Proof.
  remember (length s) as n eqn:L. revert s L. induction n as [n IH] using lt_wf_ind. intros s L v B H. destruct s as [|c s]; [injection H as <-; constructor|]. cbn [q_decode] in H.
  assert (X : forall k s', (k < 256)%N -> length s' < length (c :: s) -> Forall (fun b => b < 256)%N s' -> option_map (cons k) (q_decode s') = Some v -> Forall (fun b => b < 256)%N v).
  { intros k s' Hk K F E. destruct (q_decode s') as [v'|] eqn:Q; [|discriminate E]. injection E as <-. constructor; [exact Hk|]. exact (IH (length s') ltac:(lia) s' eq_refl v' F Q). }
  inversion_clear B as [|? ? Bc Bs].
  destruct (c =? 95)%N; [exact (X 32%N s ltac:(lia) ltac:(cbn [length]; lia) Bs H)|]. destruct (c =? 61)%N.
  - destruct s as [|h [|l s]]; try discriminate H. inversion_clear Bs as [|? ? _ B2]. inversion_clear B2 as [|? ? _ B3].
    assert (Y : forall a b, from_hex a = Some b -> (b < 16)%N) by (unfold from_hex, in_range; intros a b; repeat match goal with |- context [if ?c then _ else _] => destruct c eqn:? end; intros [= <-]; lia).
    destruct (from_hex h) as [a|] eqn:E1; [|discriminate H]. destruct (from_hex l) as [b|] eqn:E2; [|discriminate H].
    apply Y in E1, E2. exact (X (a * 16 + b)%N s ltac:(lia) ltac:(cbn [length]; lia) B3 H).
  - destruct (_ || _)%bool; [|discriminate H]. exact (X c s Bc ltac:(cbn [length]; lia) Bs H).
Qed.

Lemma b64_decode_byte s : forall v, b64_decode s = Some v -> Forall (fun b => b < 256)%N v.
Proof.
  assert (Y : forall a b, b64_val a = Some b -> (b < 64)%N) by (unfold b64_val, in_range; intros a b; repeat match goal with |- context [if ?c then _ else _] => destruct c eqn:? end; intros [= <-]; lia).
  remember (length s) as n eqn:L. revert s L. induction n as [n IH] using lt_wf_ind. intros s L v H.
  destruct s as [|c0 [|c1 [|c2 [|c3 s]]]]; try discriminate H; [injection H as <-; constructor|]. cbn [b64_decode] in H.
  destruct (b64_val c0) as [v0|] eqn:E0; [|discriminate H]. destruct (b64_val c1) as [v1|] eqn:E1; [|discriminate H]. apply Y in E0, E1.
  assert (A : (v0 * 4 + v1 / 16 < 256)%N) by lia. destruct (c2 =? 61)%N.
  - destruct (c3 =? 61)%N; [|discriminate H]. destruct s; [|discriminate H]. injection H as <-. repeat constructor. exact A.
  - destruct (b64_val c2) as [v2|] eqn:E2; [|discriminate H]. apply Y in E2. assert (B : (v1 mod 16 * 16 + v2 / 4 < 256)%N) by lia.
    destruct (c3 =? 61)%N; [destruct s; [|discriminate H]; injection H as <-; repeat constructor; assumption|].
    destruct (b64_val c3) as [v3|] eqn:E3; [|discriminate H]. apply Y in E3. assert (C : (v2 mod 4 * 64 + v3 < 256)%N) by lia.
    destruct (b64_decode s) as [v'|] eqn:Q; [|discriminate H]. injection H as <-. do 3 (constructor; [assumption|]).
    exact (IH (length s) ltac:(cbn [length] in L; lia) s eq_refl v' Q).
Qed.

Lemma convert_size rd c x y : moderate rd -> Forall (fun b => b < 256)%N x -> convert rd c x = Some y -> length y <= 3 * length x.
Proof.
  intros M B. unfold convert. destruct (equal_fold _ c); [intros H; injection H as <-; assert (X : forall n, n <= 3 * n) by (intros; lia); apply X|]. destruct (equal_fold _ c); [intros [= <-]; now apply latin_size|].
  destruct (equal_fold _ c).
  - intros [= <-]. apply flat_size. intros b _. destruct (128 <=? b)%N; cbn; lia.
  - destruct rd as [f|] eqn:E; [|discriminate]. intros H. exact (M f _ _ _ eq_refl H).
Qed.

Lemma split_whole c s : forall a b, split_at c s = Some (a, b) -> s = a ++ b.
Proof.
  induction s as [|x s IH]; intros a b H; [discriminate H|]. cbn [split_at] in H. destruct (x =? c)%N; [injection H as <- <-; reflexivity|].
  destruct (split_at c s) as [[a' b']|] eqn:E; [|discriminate H]. injection H as <- <-. cbn [app]. f_equal. now apply IH.
Qed.

(** the number of ASCII bytes *)
Definition asc (l : gostring) : nat := length (filter (fun b => b <? 128)%N l).

Lemma asc_app a b : asc (a ++ b) = asc a + asc b.
Proof. unfold asc. now rewrite filter_app, app_length. Qed.

Lemma asc_cons x b : (x <? 128)%N = true -> asc (x :: b) = S (asc b).
Proof. intros H. unfold asc. cbn [filter]. now rewrite H. Qed.

Lemma asc_le x b : asc b <= asc (x :: b).
Proof. unfold asc. cbn [filter]. destruct (x <? 128)%N; cbn [length]; lia. Qed.

Lemma asc_all l : Forall (fun b => b < 128)%N l -> asc l = length l.
Proof. induction 1 as [|x l H _ IH]; [reflexivity|]. rewrite asc_cons by now apply N.ltb_lt. cbn [length]. now rewrite IH. Qed.

Lemma q_decode_ascii s : forall v, q_decode s = Some v -> Forall (fun b => b < 128)%N s.
Proof.
  remember (length s) as n eqn:L. revert s L. induction n as [n IH] using lt_wf_ind. intros s L v H. destruct s as [|c s]; [constructor|]. cbn [q_decode] in H.
  assert (X : forall k s', length s' < length (c :: s) -> option_map (cons k) (q_decode s') = Some v -> Forall (fun b => b < 128)%N s').
  { intros k s' K E. destruct (q_decode s') as [v'|] eqn:Q; [|discriminate E]. exact (IH (length s') ltac:(lia) s' eq_refl v' Q). }
  destruct (N.eqb_spec c 95); [subst c; constructor; [reflexivity | exact (X _ s ltac:(cbn [length]; lia) H)]|]. destruct (N.eqb_spec c 61).
  - subst c. destruct s as [|h [|l s]]; try discriminate H. constructor; [reflexivity|].
    assert (Y : forall a b, from_hex a = Some b -> (a < 128)%N) by (unfold from_hex, in_range; intros a b; repeat match goal with |- context [if ?c then _ else _] => destruct c eqn:? end; try discriminate; intros _; lia).
    destruct (from_hex h) as [a|] eqn:E1; [|discriminate H]. destruct (from_hex l) as [b|] eqn:E2; [|discriminate H].
    apply Y in E1, E2. constructor; [exact E1|]. constructor; [exact E2|]. exact (X _ s ltac:(cbn [length]; lia) H).
  - destruct (_ || _)%bool eqn:C; [|discriminate H]. constructor; [unfold in_range in C; lia|]. exact (X c s ltac:(cbn [length]; lia) H).
Qed.

Lemma b64_decode_ascii s : forall v, b64_decode s = Some v -> Forall (fun b => b < 128)%N s.
Proof.
  assert (Y : forall a b, b64_val a = Some b -> (a < 128)%N) by (unfold b64_val, in_range; intros a b; repeat match goal with |- context [if ?c then _ else _] => destruct c eqn:? end; try discriminate; intros _; lia).
  remember (length s) as n eqn:L. revert s L. induction n as [n IH] using lt_wf_ind. intros s L v H.
  destruct s as [|c0 [|c1 [|c2 [|c3 s]]]]; try discriminate H; [constructor|]. cbn [b64_decode] in H.
  destruct (b64_val c0) as [v0|] eqn:E0; [|discriminate H]. destruct (b64_val c1) as [v1|] eqn:E1; [|discriminate H]. apply Y in E0, E1.
  constructor; [exact E0|]. constructor; [exact E1|]. destruct (N.eqb_spec c2 61).
  - subst c2. destruct (N.eqb_spec c3 61); [|discriminate H]. subst c3. destruct s; [|discriminate H]. repeat constructor.
  - destruct (b64_val c2) as [v2|] eqn:E2; [|discriminate H]. apply Y in E2. constructor; [exact E2|].
    destruct (N.eqb_spec c3 61); [subst c3; destruct s; [|discriminate H]; repeat constructor|].
    destruct (b64_val c3) as [v3|] eqn:E3; [|discriminate H]. apply Y in E3. constructor; [exact E3|].
    destruct (b64_decode s) as [v'|] eqn:Q; [|discriminate H]. exact (IH (length s) ltac:(cbn [length] in L; lia) s eq_refl v' Q).
Qed.

Lemma content_ascii enc s v : decode_content enc s = Some v -> Forall (fun b => b < 128)%N s.
Proof. unfold decode_content. destruct (_ || _)%bool; [apply b64_decode_ascii|]. destruct (_ || _)%bool; [apply q_decode_ascii | discriminate]. Qed.

Lemma word_decode_size rd w v : moderate rd -> word_decode rd w = Some v -> length v + 4 <= 3 * asc w.
Proof.
  intros M. unfold word_decode. destruct (_ || _)%bool eqn:C; [discriminate|]. apply orb_false_iff in C as [C _]. apply orb_false_iff in C as [C _]. apply orb_false_iff in C as [_ C]. apply negb_false_iff in C.
  set (k := firstn (length w - 4) (skipn 2 w)).
  assert (Lk : asc k + 2 <= asc w).
  { destruct w as [|a [|b w]]; try discriminate C; [cbn in C; rewrite andb_false_r in C; discriminate C|]. change (((61 =? a) && ((63 =? b) && true))%N%bool = true) in C.
    assert (a = 61 /\ b = 63)%N as [-> ->] by lia. rewrite !asc_cons by reflexivity. unfold k. cbn [skipn]. match goal with |- context [firstn ?m w] => set (n := m) end. pose proof (asc_app (firstn n w) (skipn n w)) as X. rewrite firstn_skipn in X. assert (Z : forall a b c : nat, c = a + b -> a + 2 <= S (S c)) by (intros; lia). exact (Z _ _ _ X). }
  destruct (split_at 63%N k) as [[ch rest]|] eqn:E; [|discriminate].
  destruct ch as [|c0 ch]; [discriminate|]. destruct rest as [|r0 [|en [|q t]]]; try discriminate.
  assert (At : asc t <= asc k).
  { apply split_whole in E. rewrite E, asc_app. pose proof (asc_le q t). pose proof (asc_le en (q :: t)). pose proof (asc_le r0 (en :: q :: t)). lia. }
  destruct (q =? 63)%N eqn:Q; [|discriminate]. destruct (decode_content en t) as [x|] eqn:D; [|discriminate]. intros H.
  pose proof (content_ascii _ _ _ D) as At2. apply asc_all in At2.
  assert (Bx : Forall (fun b => b < 256)%N x).
  { unfold decode_content in D. destruct (_ || _)%bool; [now apply (b64_decode_byte t)|]. destruct (_ || _)%bool; [|discriminate]. apply (q_decode_byte t); [|exact D].
    eapply Forall_impl; [|exact (q_decode_ascii _ _ D)]. cbn beta. intros; lia. }
  apply convert_size in H; auto. apply content_size in D.
  assert (Z : forall v x t at' k w : nat, v <= 3 * x -> x <= t -> at' = t -> at' <= k -> k + 2 <= w -> v + 4 <= 3 * w) by (clear; intros; lia). exact (Z _ _ _ _ _ _ H D At2 At Lk).
Qed.

(** * Measuring the values *)

Section MEASURE.
Variable rd : charset_reader.
Variable wt : tok -> nat.
Variable G : word -> Prop.

Definition mass (w : word) : nat := list_sum (map wt w).

Hypothesis G_app : forall a b, G (a ++ b) -> G a /\ G b.
Hypothesis G_tok : forall t, G [t] -> length (tok_text t) <= wt t /\ 1 <= wt t.
Hypothesis G_enc : forall w, G w -> lang (Nt R_encodedWord) w -> length (encoded_word_value rd (text w)) + 2 <= mass w.

Lemma mass_app a b : mass (a ++ b) = mass a + mass b.
Proof. unfold mass. now rewrite map_app, list_sum_app. Qed.

Lemma mass_cons t b : mass (t :: b) = wt t + mass b.
Proof. reflexivity. Qed.

Lemma G_cons t b : G (t :: b) -> G [t] /\ G b.
Proof. apply (G_app [t] b). Qed.

Lemma text_mass w : G w -> length (text w) <= mass w.
Proof.
  induction w as [|t w IH]; intros H; [reflexivity|]. apply G_cons in H as [Ht H]. apply G_tok in Ht as [Ht _]. specialize (IH H).
  change (text (t :: w)) with (tok_text t ++ text w). rewrite app_length, mass_cons. lia.
Qed.

Lemma mass_nonempty w : G w -> w <> [] -> 1 <= mass w.
Proof. destruct w as [|t w]; [congruence|]. intros H _. apply G_cons in H as [H _]. apply G_tok in H. rewrite mass_cons. lia. Qed.

Ltac parts H := repeat match type of H with
  | G (_ ++ _) => let X := fresh H in apply G_app in H as [X H]
  | G (_ :: _) => let X := fresh H in apply G_cons in H as [X H]; apply G_tok in X as [? ?]
  end.

Lemma qcontent_mass w v : G w -> r_qcontent w v -> length v <= mass w.
Proof. intros H. destruct 1 as [t _|b t _ _|b t _ _]; parts H; rewrite ?mass_cons; cbn [length]; lia. Qed.

Lemma qvalue_mass w v : r_qvalue w v -> G w -> length v <= mass w.
Proof.
  induction 1 as [|u c w v1 v2 U C H IH]; intros L; [cbn; lia|]. parts L.
  apply text_mass in L0. apply qcontent_mass in C; [|assumption]. specialize (IH L). rewrite !app_length, !mass_app. lia.
Qed.

Lemma qstring_mass w v : G w -> r_qstring w v -> length v + 2 <= mass w.
Proof.
  intros L (q1 & m & u & q2 & -> & _ & _ & V & _). parts L. apply qvalue_mass in V; [|assumption]. rewrite mass_cons, !mass_app, mass_cons. lia.
Qed.

(** what a word leaves for a space before and after it *)
Definition spare (k : wkind) : nat * nat :=
  match k with KAtom b a => (Nat.b2n b, Nat.b2n a) | _ => (1, 1) end.

Lemma encs_mass w v : r_encs rd w v -> G w -> length v + 2 <= mass w.
Proof.
  induction 1 as [u e u' Hu He Hu'|u e u' w v Hu He Hu' Hw IH]; intros L; parts L.
  - apply G_enc in He; [|assumption]. rewrite !mass_app. lia.
  - apply G_enc in He; [|assumption]. specialize (IH L). rewrite !mass_app, app_length. lia.
Qed.

Lemma nonempty_mass u : G u -> Nat.b2n (nonempty u) <= mass u.
Proof. intros H. destruct u as [|t u]; [cbn; lia|]. apply mass_nonempty in H; [|discriminate]. cbn [nonempty Nat.b2n]. exact H. Qed.

Lemma word_mass k w v : G w -> r_word rd k w v -> length v + fst (spare k) + snd (spare k) <= mass w.
Proof.
  intros L. destruct 1 as [w v H|u a u' Hu Ha Hu' _|u q u' v Hu Hq Hu'].
  - apply encs_mass in H; [|assumption]. cbn [spare fst snd]. lia.
  - parts L. cbn [spare fst snd]. rewrite !mass_app. apply nonempty_mass in L0, L. apply text_mass in L1. lia.
  - parts L. apply qstring_mass in Hq; [|assumption]. cbn [spare fst snd]. rewrite !mass_app. lia.
Qed.

(** [c] is what is left of the previous items for a space *)
Lemma dname_mass ws l : Forall2 (r_ditem rd) ws l -> G (concat ws) -> apart ws l -> forall n u c, c <= 1 ->
  (c = 0 -> u = true \/ n = [] \/ match l with DWord (KAtom false _) _ :: _ => False | _ => True end) ->
  length (dname n u l) <= length n + c + mass (concat ws).
Proof.
  induction 1 as [|w d ws l D H IH]; intros L A n u c Hc Z; [cbn [dname concat mass map list_sum]; lia|]. cbn [concat] in *. apply G_app in L as [Lw L]. rewrite mass_app.
  destruct D as [k w v W|t Ht|w W].
  - cbn [apart] in A. destruct A as (F & _ & A). pose proof (word_mass k w v Lw W) as S. specialize (IH L A). cbn [dname].
    set (n' := if u then n ++ v else match n with [] => v | _ => (n ++ bs " ") ++ v end).
    assert (N : length n' <= length n + length v + 1 /\ (u = true \/ n = [] -> length n' <= length n + length v)).
    { unfold n'. destruct u; [rewrite app_length; lia|]. destruct n as [|x n]; [cbn [length]; lia|]. rewrite !app_length. change (length (bs " ")) with 1. split; [lia|]. intros [X|X]; discriminate X. }
    assert (K : length n' + snd (spare k) <= length n + c + mass w).
    { destruct c as [|c]; [|lia]. specialize (Z eq_refl). destruct Z as [Z|[Z|Z]]; [destruct N as [_ N]; specialize (N (or_introl Z)); lia | destruct N as [_ N]; specialize (N (or_intror Z)); lia|].
      destruct k as [|[|] a|]; cbn [spare fst snd Nat.b2n] in *; (contradiction || lia). }
    specialize (IH n' false (snd (spare k))). assert (c' : snd (spare k) <= 1) by (destruct k as [|b [|]|]; cbn; lia). specialize (IH c').
    assert (Y : snd (spare k) = 0 -> false = true \/ n' = [] \/ match l with DWord (KAtom false _) _ :: _ => False | _ => True end).
    { destruct k as [|b [|]|]; cbn [spare snd Nat.b2n]; try discriminate. intros _. right; right. cbn [follows] in F. destruct l as [|[[|[|] a| ] v0| v0|] l]; first [exact Logic.I | exact F]. }
    specialize (IH Y). assert (X : forall d n' s m n c w : nat, d <= n' + s + m -> n' + s <= n + c + w -> d <= n + c + (w + m)) by (clear; intros; lia). exact (X _ _ _ _ _ _ _ IH K).
  - cbn [apart] in A. cbn [dname]. specialize (IH L A (n ++ tok_text t) true 0 ltac:(lia) (fun _ => or_introl eq_refl)). parts Lw. rewrite app_length in IH. rewrite mass_cons. lia.
  - cbn [apart] in A. cbn [dname]. specialize (IH L A n u 1 ltac:(lia) ltac:(discriminate)). assert (W' : w <> []) by (intros ->; apply lang_nullable in W; discriminate W).
    apply mass_nonempty in Lw; [|exact W']. lia.
Qed.

Lemma display_mass w v : G w -> r_display rd w v -> length v <= mass w.
Proof.
  intros L (k & w1 & v1 & ws & l & -> & W & D & A & ->).
  apply (dname_mass (w1 :: ws) (DWord k v1 :: l)) with (n := []) (u := false) (c := 0) in A; [exact A | constructor; [now constructor | exact D] | exact L | lia | intros _; right; now left].
Qed.

Lemma obs_mass w l : r_obslocal rd w l -> G w -> length (join (bs ".") l) <= mass w.
Proof.
  induction 1 as [k w v H|k w v p w' l H Hp Hl IH]; intros L.
  - apply word_mass in H; [|assumption]. cbn [join]. lia.
  - parts L. apply word_mass in H; [|assumption]. specialize (IH L). rewrite mass_app, mass_cons.
    assert (J : length (join (bs ".") (v :: l)) <= length v + 1 + length (join (bs ".") l)).
    { destruct l; [cbn [join length]; lia|]. cbn [join]. rewrite !app_length. change (length (bs ".")) with 1. lia. }
    lia.
Qed.

Lemma local_mass w v : G w -> r_local rd w v -> length v <= mass w.
Proof.
  intros L. destruct 1 as [u a u' Hu Ha Hu'|u q u' v Hu Hq Hu'|w l H _].
  - parts L. apply text_mass in L1. rewrite !mass_app. lia.
  - parts L. apply qstring_mass in Hq; [|assumption]. rewrite !mass_app. lia.
  - now apply obs_mass.
Qed.

Lemma domain_mass w v : G w -> r_domain w v -> length v <= mass w.
Proof. intros L. destruct 1 as [u m u' _ _ _]. parts L. apply text_mass in L1. rewrite !mass_app. lia. Qed.

Lemma addrspec_mass w v : G w -> r_addrspec rd w v -> length v <= mass w.
Proof.
  intros L. destruct 1 as [wl l a wd d Hl _ Hd|wl l a wd d c p Hl _ Hd _ _]; parts L.
  - apply local_mass in Hl; [|assumption]. apply domain_mass in Hd; [|assumption]. unfold at_join. rewrite !app_length, mass_app, mass_cons. change (length (bs "@")) with 1. lia.
  - apply local_mass in Hl; [|assumption]. apply domain_mass in Hd; [|assumption]. apply text_mass in L. unfold at_join. rewrite !app_length, mass_app, mass_cons, mass_app, mass_cons. change (length (bs "@")) with 1. change (length (bs ":")) with 1. lia.
Qed.

Lemma angle_mass w v : G w -> r_angle rd w v -> length v <= mass w.
Proof.
  intros L. destruct 1 as [u lt s a gt u' _ _ H _ _|u lt gt u' _ _ _ _|u lt r s a gt u' _ _ _ H _ _]; parts L.
  - apply addrspec_mass in H; [|assumption]. rewrite mass_app, mass_cons, mass_app. lia.
  - cbn [length]. lia.
  - apply addrspec_mass in H; [|assumption]. rewrite mass_app, mass_cons, !mass_app. lia.
Qed.

Lemma mailbox_mass w a : G w -> r_mailbox rd w a -> length (a_name a) + length (a_address a) <= mass w.
Proof.
  intros L. destruct 1 as [wn n wa a Hn Ha|wa a Ha|w a Ha]; cbn [a_name a_address].
  - parts L. apply display_mass in Hn; [|assumption]. apply angle_mass in Ha; [|assumption]. rewrite mass_app. lia.
  - apply angle_mass in Ha; [|assumption]. cbn [length]. lia.
  - apply addrspec_mass in Ha; [|assumption]. cbn [length]. lia.
Qed.

Lemma size_app a b : size_of (a ++ b) = size_of a + size_of b.
Proof. unfold size_of. now rewrite map_app, list_sum_app. Qed.

Lemma list_mass (P : word -> list addr -> Prop) seps : (forall x l, G x -> P x l -> size_of l <= mass x) ->
  forall w l, G w -> r_list P seps w l -> size_of l <= mass w.
Proof.
  intros HP w l L (j & x & l1 & t & l2 & -> & _ & H & T & ->). parts L. apply HP in H; [|assumption]. rewrite size_app, !mass_app.
  assert (X : size_of l2 <= mass t); [|lia]. clear - HP T L G_app G_tok. revert L. induction T as [|k x l w l' _ Hx _ IH|k x w l' _ _ _ IH]; intros L; [cbn; lia| |]; parts L; specialize (IH L).
  - apply HP in Hx; [|assumption]. rewrite size_app, mass_cons, mass_app. lia.
  - rewrite mass_cons, mass_app. lia.
Qed.

Lemma box1_mass w l : G w -> r_mbox1 rd w l -> size_of l <= mass w.
Proof. intros L (a & H & ->). apply mailbox_mass in H; [|assumption]. cbn [size_of map list_sum fold_right]. unfold size_of. cbn [map list_sum fold_right]. lia. Qed.

Lemma address_mass w l : G w -> r_address rd w l -> size_of l <= mass w.
Proof.
  intros L. destruct 1 as [w a H|w l H _]; [apply box1_mass; [assumption | exists a; auto]|].
  destruct H as (q1 & wn & n & c & wl & q2 & sc & u & -> & _ & _ & _ & H & _). parts L.
  assert (X : size_of l <= mass wl).
  { destruct H as [|w l H|w _|w _]; try (cbn; lia). eapply list_mass; [exact box1_mass | assumption | exact H]. }
  rewrite !mass_app, mass_cons, !mass_app. lia.
Qed.

Lemma addresses_mass w l : G w -> r_list (r_address rd) [T_Comma; T_Semicolon] w l -> size_of l <= mass w.
Proof. apply list_mass. exact address_mass. Qed.
End MEASURE.

(** * The input *)

Lemma decode1_length b s : length (snd (decode1 b s)) <= length s.
Proof.
  unfold decode1. destruct (b <? 128)%N; [cbn; lia|]. destruct (in_range 194 223 b)%N.
  { destruct s as [|b1 s]; [cbn; lia|]. destruct (cont b1); cbn [snd length]; lia. }
  destruct (in_range 224 239 b)%N.
  { destruct s as [|b1 [|b2 s]]; [cbn; lia | cbn; lia|]. destruct (_ && _)%bool; cbn [snd length]; lia. }
  destruct (in_range 240 244 b)%N; [|cbn; lia].
  destruct s as [|b1 [|b2 [|b3 s]]]; [cbn; lia | cbn; lia | cbn; lia|]. destruct (_ && _)%bool; cbn [snd length]; lia.
Qed.

Lemma decode_length s : length (decode s) <= length s.
Proof.
  unfold decode. generalize (length s) at 1. intros n. revert s. induction n as [|n IH]; intros [|b s]; try (cbn; lia). cbn [decode_fuel].
  destruct (decode1 b s) as [r s1] eqn:E. pose proof (decode1_length b s) as L. rewrite E in L. cbn [snd] in L. cbn [length]. specialize (IH s1). lia.
Qed.

Lemma filter_size {A} (f : A -> bool) l : length (filter f l) <= length l.
Proof. induction l as [|x l IH]; [cbn; lia|]. cbn [filter]. destruct (f x); cbn [length]; lia. Qed.

Lemma kept_length s : length (toks (kept s)) <= length s.
Proof. unfold toks, kept. rewrite map_length. pose proof (filter_size bmp (decode s)). pose proof (decode_length s). lia. Qed.

Lemma encode1_nonempty r : encode1 r <> [].
Proof. unfold encode1. repeat match goal with |- context [if ?c then _ else _] => destruct c end; discriminate. Qed.

Lemma asc_text w : Forall lexed w -> asc (text w) <= length w.
Proof.
  induction 1 as [|t w Ht _ IH]; [cbn; lia|]. change (text (t :: w)) with (tok_text t ++ text w). rewrite asc_app, lexed_text by exact Ht. cbn [length].
  assert (X : forall r, asc (encode1 r) <= 1); [|pose proof (X (tr t)); lia]. clear. intros r. unfold encode1. destruct (N.ltb_spec r 128); [unfold asc; cbn [filter]; destruct (r <? 128)%N; cbn; lia|].
  assert (Y : forall l, Forall (fun b => (b <? 128)%N = false) l -> asc l <= 1).
  { intros l F. unfold asc. induction F as [|x l Hx _ IH]; [cbn; lia|]. cbn [filter]. now rewrite Hx. }
  destruct (N.ltb_spec r 2048); [|destruct (_ || _)%bool; [|destruct (N.ltb_spec r 65536)]]; apply Y; repeat (apply Forall_cons; [apply N.ltb_ge; lia|]); apply Forall_nil.
Qed.

(** C54: all names and addresses together are at most three times as long as the input. *)
Theorem C54_results_are_short : forall (e : env) (s : gostring) (sl : slice),
  moderate (reader (wenv_of e)) -> ParseAddressList e s = Ret sl None ->
  size_of (elems sl) <= 3 * length s.
Proof.
  intros e s sl M H. destruct s as [|b s]; [cbn in H; injection H as <-; cbn; lia|]. apply reading in H as [L R]; [|discriminate].
  apply (addresses_mass _ (fun _ => 3) (Forall lexed)) in R; [| | | |exact L].
  - assert (K : forall w, mass (fun _ => 3) w = 3 * length w) by (induction w as [|t w IH]; [reflexivity|]; rewrite mass_cons, IH; cbn [length]; lia).
    rewrite K in R. pose proof (kept_length (b :: s)) as X. assert (Z : forall a k n, a <= 3 * k -> k <= n -> a <= 3 * n) by (clear; intros; lia). exact (Z _ _ _ R X).
  - intros x y Hxy. now apply Forall_app in Hxy.
  - intros t Ht. apply Forall_inv in Ht. rewrite lexed_text by exact Ht. split; [apply encode1_size; now apply lexed_bmp | lia].
  - intros w Lw Hw. assert (K : mass (fun _ => 3) w = 3 * length w) by (clear; induction w as [|t w IH]; [reflexivity|]; rewrite mass_cons, IH; cbn [length]; lia). rewrite K. clear K.
    unfold encoded_word_value. destruct (word_decode _ (text w)) as [v|] eqn:D.
    + apply word_decode_size in D; [|exact M]. pose proof (asc_text w Lw). assert (Z : forall v a n, v + 4 <= 3 * a -> a <= n -> v + 2 <= 3 * n) by (clear; intros; lia). eapply Z; eassumption.
    + destruct (encoded_head w Hw) as (a & c & w' & -> & Ea & Ec). inversion_clear Lw as [|? ? La L']. inversion_clear L' as [|? ? Lc Lw'].
      change (text (a :: c :: w')) with (tok_text a ++ tok_text c ++ text w'). rewrite !app_length, (lexed_text a La), (lexed_text c Lc), (text_lexed w' Lw').
      rewrite (tok_char T_Equal 61 a), (tok_char T_Question 63 c) by (reflexivity || discriminate || auto).
      change (length (encode1 61%N)) with 1. change (length (encode1 63%N)) with 1. cbn [length].
      assert (X : length (encode (map tr w')) <= 3 * length w').
      { unfold encode. rewrite <- (map_length tr w'). apply flat_size. intros r Hr. apply in_map_iff in Hr as (t & <- & Ht). apply encode1_size, lexed_bmp. rewrite Forall_forall in Lw'. now apply Lw'. }
      lia.
Qed.

(** In valid UTF-8 without "=?" they are not longer than the input. *)
Theorem C54_plain_results_are_no_longer : forall (e : env) (rs : list rune) (sl : slice),
  Forall valid_rune rs -> no_intro (filter bmp rs) -> ParseAddressList e (encode rs) = Ret sl None ->
  size_of (elems sl) <= length (encode rs).
Proof.
  intros e rs sl V I H. destruct rs as [|r rs]; [cbn in H; injection H as <-; cbn; lia|].
  assert (N : encode (r :: rs) <> []) by (change (encode (r :: rs)) with (encode1 r ++ encode rs); pose proof (encode1_nonempty r); destruct (encode1 r); [congruence | discriminate]).
  apply reading in H as [L R]; [|exact N]. unfold kept in L, R. rewrite decode_encode_all in L, R by exact V. clear V N. set (x := r :: rs) in *. clearbody x. clear r rs.
  assert (T : text (toks (filter bmp x)) = encode (filter bmp x)).
  { rewrite text_lexed by exact L. f_equal. clear. induction (filter bmp x) as [|r l IH]; [reflexivity|]. cbn [toks map]. f_equal. exact IH. }
  apply (addresses_mass _ (fun t => length (tok_text t)) (fun w => Forall lexed w /\ no_intro (map tr w))) in R.
  - assert (K : forall w, mass (fun t => length (tok_text t)) w = length (text w)) by (clear; induction w as [|t w IH]; [reflexivity|]; rewrite mass_cons, IH; change (text (t :: w)) with (tok_text t ++ text w); now rewrite app_length).
    rewrite K, T in R. assert (Z : length (encode (filter bmp x)) <= length (encode x)); [|etransitivity; eassumption].
    clear. induction x as [|r x IH]; [cbn; lia|]. cbn [filter]. change (encode (r :: x)) with (encode1 r ++ encode x). rewrite app_length. destruct (bmp r); [|lia]. change (encode (r :: filter bmp x)) with (encode1 r ++ encode (filter bmp x)). rewrite app_length. lia.
  - intros a b [Hl Hi]. apply Forall_app in Hl as [H1 H2]. rewrite map_app in Hi. split; (split; [assumption|]).
    + intros p q E. apply (Hi p (q ++ map tr b)). rewrite E, <- !app_assoc. reflexivity.
    + intros p q E. apply (Hi (map tr a ++ p) q). rewrite E, <- !app_assoc. reflexivity.
  - intros t [Ht _]. apply Forall_inv in Ht. split; [lia|]. rewrite lexed_text by exact Ht. pose proof (encode1_nonempty (tr t)). destruct (encode1 (tr t)); [congruence | cbn; lia].
  - intros w [Lw Hi] Hw. exfalso. destruct (encoded_head w Hw) as (a & c & w' & -> & Ea & Ec). inversion_clear Lw as [|? ? La L']. apply Forall_inv in L'.
    apply (Hi [] (map tr w')). cbn [map]. rewrite (tok_char T_Equal 61 a), (tok_char T_Question 63 c) by (reflexivity || discriminate || auto). reflexivity.
  - split; [exact L|]. assert (M : map tr (toks (filter bmp x)) = filter bmp x) by (clear; induction (filter bmp x) as [|r l IH]; [reflexivity|]; cbn [toks map]; f_equal; exact IH). now rewrite M.
Qed.

(** * The number of results *)

Section COUNT.
Variable rd : charset_reader.

Lemma mailbox_two w a : r_mailbox rd w a -> 2 <= length w.
Proof.
  assert (A : forall w a, r_angle rd w a -> 2 <= length w) by (destruct 1; rewrite !app_length; cbn [length]; rewrite ?app_length; cbn [length]; rewrite ?app_length; cbn [length]; lia).
  destruct 1 as [wn n wa a' _ Ha|wa a' Ha|w a' Ha]; [apply A in Ha; rewrite app_length; lia | now apply A in Ha|].
  assert (D : forall w d, r_domain w d -> 1 <= length w).
  { destruct 1 as [u m u' _ Hm _]. assert (m <> []); [|destruct m; [congruence|]; rewrite !app_length; cbn [length]; lia]. intros ->. destruct Hm as [Hm|[Hm|Hm]]; apply lang_nullable in Hm; discriminate Hm. }
  destruct Ha as [wl l a0 wd d _ _ Hd|wl l a0 wd d c p _ _ Hd _ _]; apply D in Hd; rewrite !app_length; cbn [length]; rewrite ?app_length; cbn [length]; lia.
Qed.

Lemma list_count (P : word -> list addr -> Prop) seps : (forall x l, P x l -> 3 * length l <= length x + 1) ->
  forall w l, r_list P seps w l -> 3 * length l <= length w + 1.
Proof.
  intros HP w l (j & x & l1 & t & l2 & -> & _ & H & T & ->). apply HP in H. rewrite !app_length.
  assert (X : 3 * length l2 <= length t); [|lia]. induction T as [|k y l w l' _ Hx _ IH|k y w l' _ _ _ IH]; [cbn; lia| |].
  - apply HP in Hx. rewrite app_length. cbn [length]. rewrite app_length. lia.
  - cbn [length]. rewrite app_length. lia.
Qed.

Lemma address_count w l : r_address rd w l -> 3 * length l <= length w + 1.
Proof.
  assert (B : forall w l, r_mbox1 rd w l -> 3 * length l <= length w + 1) by (intros w0 l0 (a & H & ->); apply mailbox_two in H; cbn [length]; lia).
  destruct 1 as [w a H|w l H _]; [apply B; exists a; auto|]. destruct H as (q1 & wn & n & c & wl & q2 & sc & u & -> & _ & _ & _ & H & _).
  assert (X : 3 * length l <= length wl + 1) by (destruct H as [|w l H|w _|w _]; try (cbn [length]; lia); eapply list_count; [exact B | exact H]).
  rewrite !app_length. cbn [length]. rewrite !app_length. lia.
Qed.
End COUNT.

(** n addresses need at least 3 n - 1 bytes of input. *)
Theorem C54_few_results : forall (e : env) (s : gostring) (sl : slice),
  ParseAddressList e s = Ret sl None -> 3 * length (elems sl) <= length s + 1.
Proof.
  intros e s sl H. destruct s as [|b s]; [cbn in H; injection H as <-; cbn; lia|]. apply reading in H as [L R]; [|discriminate].
  apply list_count in R; [|apply address_count]. pose proof (kept_length (b :: s)) as X. assert (Z : forall a k n, 3 * a <= k + 1 -> k <= n -> 3 * a <= n + 1) by (clear; intros; lia). exact (Z _ _ _ R X).
Qed.

(** ** Concrete cases *)

(** Bytes that are not UTF-8 become three bytes each; the angle brackets are not part of a result. *)
Example C54_met : moderate (reader (wenv_of env0)) /\
  ParseAddressList env0 (repeat 255%N 3 ++ bs "<" ++ repeat 254%N 2 ++ bs "@" ++ repeat 200%N 4 ++ bs ">") =
    Ret (Some [mkAddr (encode (repeat 65533%N 3)) (encode (repeat 65533%N 2) ++ bs "@" ++ encode (repeat 65533%N 4))]) None.
Proof. split; [intros f c x y H; discriminate H | vm_compute; reflexivity]. Qed.

(** no slack at all in the second and third theorems *)
Example C54_plain_met : ParseAddressList env0 (bs "a@b") = Ret (Some [mkAddr [] (bs "a@b")]) None /\
  ParseAddressList env0 (bs "<>,<>,<>") = Ret (Some [mkAddr [] []; mkAddr [] []; mkAddr [] []]) None /\ 3 * 3 = length (bs "<>,<>,<>") + 1.
Proof. split; [vm_compute; reflexivity|]. split; vm_compute; reflexivity. Qed.

(** A decoded byte that is not ASCII becomes three bytes. *)
Example C54_encoded_met :
  ParseAddressList env0 (bs "=?us-ascii?b?////?=<>") = Ret (Some [mkAddr (encode (repeat 65533%N 3)) []]) None.
Proof. vm_compute. reflexivity. Qed.
