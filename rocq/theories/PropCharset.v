(** C50: what an encoded word stands for, in full. *)
From Coq Require Import String List NArith ZArith Bool Arith Lia ZifyN ZifyBool Zify.
From Verif Require Import Lexer Utf8 Strs Mime GoTime Walker Api Utf8Facts DateSpec AddrSpec CharFacts PropApi
  ScanSpec AddrText TextLang TextScan PropText PropAddr PropEnc.
Import ListNotations.
Local Open Scope N_scope.

(** ** Specification (RFC 2047) *)

(** Hexadecimal and base64 digits: their position in the alphabet. *)
Definition digit_of (alphabet : gostring) (c : rune) (v : nat) : Prop := nth_error alphabet v = Some c.
Definition hex_digit (c : rune) (v : nat) : Prop := digit_of (bs "0123456789ABCDEF") c v \/ digit_of (bs "0123456789abcdef") c v.
Definition digit64 : rune -> nat -> Prop := digit_of (bs "ABCDEFGHIJKLMNOPQRSTUVWXYZabcdefghijklmnopqrstuvwxyz0123456789+/").

(** The bytes of a Q text: _ is a space, =XX the byte XX, any other character itself. *)
Inductive reads_q : list rune -> gostring -> Prop :=
| q_end : reads_q [] []
| q_space : forall t x, reads_q t x -> reads_q (bs "_" ++ t) (bs " " ++ x)
| q_hex : forall h l a b t x, hex_digit h a -> hex_digit l b -> reads_q t x ->
    reads_q (bs "=" ++ [h; l] ++ t) (N.of_nat (a * 16 + b) :: x)
| q_char : forall c t x, 33 <= c <= 126 -> ~ In c (bs "_=") -> reads_q t x -> reads_q (c :: t) (c :: x).

(** The bytes of a base64 text: four digits give three bytes, and the last group may end in = or ==. *)
Inductive reads_64 : list rune -> gostring -> Prop :=
| b_end : reads_64 [] []
| b_one : forall c0 c1 v0 v1, digit64 c0 v0 -> digit64 c1 v1 ->
    reads_64 ([c0; c1] ++ bs "==") [(N.of_nat v0 * 64 + N.of_nat v1) / 16]
| b_two : forall c0 c1 c2 v0 v1 v2 n, digit64 c0 v0 -> digit64 c1 v1 -> digit64 c2 v2 -> n = (N.of_nat v0 * 64 + N.of_nat v1) * 64 + N.of_nat v2 ->
    reads_64 ([c0; c1; c2] ++ bs "=") [n / 1024; n / 4 mod 256]
| b_three : forall c0 c1 c2 c3 v0 v1 v2 v3 n t x, digit64 c0 v0 -> digit64 c1 v1 -> digit64 c2 v2 -> digit64 c3 v3 ->
    n = ((N.of_nat v0 * 64 + N.of_nat v1) * 64 + N.of_nat v2) * 64 + N.of_nat v3 -> reads_64 t x ->
    reads_64 ([c0; c1; c2; c3] ++ t) ([n / 65536; n / 256 mod 256; n mod 256] ++ x).

Definition content (en t : list rune) (x : gostring) : Prop :=
  In en [bs "Q"; bs "q"] /\ reads_q t x \/ In en [bs "B"; bs "b"] /\ reads_64 t x.

(** Bytes in charset [c] as UTF-8; any charset but the three built-in ones is left to CharsetReader, which is
    given the name in lower case. *)
Inductive converted (rd : charset_reader) (c : list rune) (x : gostring) : gostring -> Prop :=
| v_utf8 : to_lower c = bs "utf-8" -> converted rd c x x
| v_latin1 : to_lower c = bs "iso-8859-1" -> converted rd c x (encode x)
| v_ascii : to_lower c = bs "us-ascii" -> converted rd c x (encode (map (fun b => if b <? 128 then b else 65533) x))
| v_reader : forall f v, ~ In (to_lower c) built_in -> rd = Some f -> f (to_lower c) x = Some v -> converted rd c x v.

(** The value of =?c?en?t?= : its decoded text if it can be decoded, and otherwise the word itself. *)
Definition stands_for (rd : charset_reader) (c en t : list rune) (v : gostring) : Prop :=
  (exists x, content en t x /\ converted rd c x v) \/
  (forall x v', content en t x -> ~ converted rd c x v') /\ v = encoded c en t.

(** A word of a display name: gap before it, charset, encoding, text, and the value. *)
Record piece : Type := mkPiece { p_gap : list rune; p_charset : list rune; p_enc : list rune; p_text : list rune; p_value : gostring }.

Definition piece_ok (rd : charset_reader) (p : piece) : Prop :=
  ogap (p_gap p) /\ nonempty_all charset_char (p_charset p) /\ nonempty_all charset_char (p_enc p) /\
  nonempty_all encoded_char (p_text p) /\ stands_for rd (p_charset p) (p_enc p) (p_text p) (p_value p).

Definition piece_text (p : piece) : list rune := p_gap p ++ encoded (p_charset p) (p_enc p) (p_text p).

(** ** Proofs *)
Lemma digit_of_val (alphabet : gostring) (f : rune -> option N) :
  forallb (fun i => match nth_error alphabet i with Some c => match f c with Some v => v =? N.of_nat i | None => false end | None => true end) (seq 0 (length alphabet)) = true ->
  forall c v, digit_of alphabet c v -> f c = Some (N.of_nat v).
Proof.
  intros H c v D. unfold digit_of in D. rewrite forallb_forall in H. specialize (H v). rewrite D in H.
  assert (In v (seq 0 (length alphabet))) as Hv. { apply in_seq. split; [lia|]. apply nth_error_Some. intros X. rewrite X in D. discriminate D. }
  specialize (H Hv). destruct (f c); [|discriminate]. apply N.eqb_eq in H. now subst.
Qed.

Lemma digit64_val c v : digit64 c v -> b64_val c = Some (N.of_nat v).
Proof. apply digit_of_val. vm_compute. reflexivity. Qed.

Lemma hex_digit_val c v : hex_digit c v -> from_hex c = Some (N.of_nat v).
Proof. intros [H|H]; revert H; apply digit_of_val; vm_compute; reflexivity. Qed.

Lemma val_digit (alphabet : gostring) (f : rune -> option N) c v k : (forall d, k < d -> f d = None) ->
  forallb (fun i => match f (N.of_nat i) with Some v => match nth_error alphabet (N.to_nat v) with Some d => d =? N.of_nat i | None => false end | None => true end) (seq 0 (S (N.to_nat k))) = true ->
  f c = Some v -> digit_of alphabet c (N.to_nat v).
Proof.
  intros Hk H E. destruct (N.le_gt_cases c k) as [L|L]; [|rewrite (Hk _ L) in E; discriminate].
  rewrite forallb_forall in H. specialize (H (N.to_nat c)). rewrite N2Nat.id, E in H. unfold digit_of.
  specialize (H ltac:(apply in_seq; lia)). destruct (nth_error alphabet (N.to_nat v)); [|discriminate]. apply N.eqb_eq in H. now subst.
Qed.

Lemma val_digit64 c v : b64_val c = Some v -> digit64 c (N.to_nat v).
Proof.
  apply (val_digit _ _ _ _ 127); [|vm_compute; reflexivity]. intros d Hd. unfold b64_val, in_range.
  repeat match goal with |- context [if ?b then _ else _] => destruct b eqn:?; [lia|] end. reflexivity.
Qed.

Lemma val_hex_digit c v : from_hex c = Some v -> hex_digit c (N.to_nat v).
Proof.
  intros H. destruct (N.ltb_spec c 91) as [L|L].
  - left. revert H. unfold digit_of. assert (F : forallb (fun i => match from_hex (N.of_nat i) with Some v => match nth_error (bs "0123456789ABCDEF") (N.to_nat v) with Some d => d =? N.of_nat i | None => false end | None => true end) (seq 0 91) = true) by (vm_compute; reflexivity).
    rewrite forallb_forall in F. specialize (F (N.to_nat c) ltac:(apply in_seq; lia)). rewrite N2Nat.id in F. intros H. rewrite H in F.
    destruct (nth_error (bs "0123456789ABCDEF") (N.to_nat v)); [|discriminate]. apply N.eqb_eq in F. now subst.
  - right. unfold from_hex, in_range in H. destruct ((48 <=? c) && (c <=? 57)) eqn:E1; [lia|]. destruct ((65 <=? c) && (c <=? 70)) eqn:E2; [lia|].
    destruct ((97 <=? c) && (c <=? 102)) eqn:E3; [|discriminate]. injection H as <-.
    assert (C : c = 97 \/ c = 98 \/ c = 99 \/ c = 100 \/ c = 101 \/ c = 102) by lia.
    unfold digit_of. destruct C as [->|[->|[->|[->|[->| ->]]]]]; reflexivity.
Qed.

Lemma digit64_bound c v : digit64 c v -> (v < 64)%nat.
Proof. intros H. change 64%nat with (length (bs "ABCDEFGHIJKLMNOPQRSTUVWXYZabcdefghijklmnopqrstuvwxyz0123456789+/")). apply nth_error_Some. unfold digit64, digit_of in H. intros X. rewrite X in H. discriminate H. Qed.

Lemma digit64_eq c v : digit64 c v -> (c =? 61) = false.
Proof. intros H. apply digit64_val in H. destruct (N.eqb_spec c 61) as [->|]; [discriminate H | reflexivity]. Qed.

Lemma q_reads t x : Forall (fun r => encoded_char r = true) t -> (q_decode t = Some x <-> reads_q t x).
Proof.
  intros F. split.
  - revert x. remember (length t) as n eqn:En. assert (L : (length t <= n)%nat) by lia. clear En. revert t L F.
    induction n as [|n IH]; intros t L F x H; destruct t as [|c t]; try (cbn in L; lia); try (injection H as <-; constructor).
    apply Forall_cons_iff in F as [Fc F]. cbn [length] in L. cbn [q_decode] in H.
    destruct (N.eqb_spec c 95) as [->|N1].
    { destruct (q_decode t) as [y|] eqn:E; [|discriminate]. injection H as <-. apply (q_space t y). apply IH; auto; lia. }
    destruct (N.eqb_spec c 61) as [->|N2].
    { destruct t as [|h [|l t]]; try discriminate. destruct (from_hex h) as [a|] eqn:Ea; [|discriminate]. destruct (from_hex l) as [b|] eqn:Eb; [|discriminate].
      destruct (q_decode t) as [y|] eqn:E; [|discriminate]. injection H as <-. apply val_hex_digit in Ea, Eb.
      replace (a * 16 + b) with (N.of_nat (N.to_nat a * 16 + N.to_nat b)) by lia. apply (q_hex h l _ _ t y Ea Eb). apply IH; auto.
      - cbn in L. lia.
      - apply Forall_cons_iff in F as [_ F]. apply Forall_cons_iff in F as [_ F]. exact F. }
    destruct (in_range 32 126 c || (c =? 10) || (c =? 13) || (c =? 9)) eqn:R; [|discriminate].
    destruct (q_decode t) as [y|] eqn:E; [|discriminate]. injection H as <-. apply q_char; [| |apply IH; auto; lia].
    + unfold encoded_char in Fc. unfold in_range in R. assert (c <> 32 /\ c <> 10 /\ c <> 13 /\ c <> 9) by (repeat split; intros ->; discriminate Fc). lia.
    + cbn. intros [X|[X|[]]]; [apply N1 | apply N2]; symmetry; exact X.
  - induction 1 as [|t x H IH|h l a b t x Ha Hb H IH|c t x Hc Hn H IH].
    + reflexivity.
    + cbn [app bs] in *. change (option_map (cons 32) (q_decode t) = Some (32 :: x)). rewrite IH by (apply Forall_cons_iff in F as [_ F]; exact F). reflexivity.
    + change (match from_hex h, from_hex l with Some x, Some y => option_map (cons (x * 16 + y)) (q_decode t) | _, _ => None end = Some (N.of_nat (a * 16 + b) :: x)).
      rewrite (hex_digit_val _ _ Ha), (hex_digit_val _ _ Hb), IH by (apply Forall_cons_iff in F as [_ F]; apply Forall_cons_iff in F as [_ F]; apply Forall_cons_iff in F as [_ F]; exact F).
      cbn [option_map]. do 2 f_equal. lia.
    + cbn [q_decode]. destruct (N.eqb_spec c 95) as [->|_]; [exfalso; apply Hn; now left|]. destruct (N.eqb_spec c 61) as [->|_]; [exfalso; apply Hn; right; now left|].
      unfold in_range. destruct ((32 <=? c) && (c <=? 126)) eqn:R; [|lia]. cbn [orb]. rewrite IH by (apply Forall_cons_iff in F as [_ F]; exact F). reflexivity.
Qed.

Lemma bits1 a b : b < 64 -> (a * 64 + b) / 16 = a * 4 + b / 16.
Proof. intros H. rewrite <- (N.div_unique (a * 64 + b) 16 (a * 4 + b / 16) (b mod 16)); [reflexivity | apply N.mod_lt; discriminate|]. pose proof (N.div_mod b 16). lia. Qed.

Lemma div_is a b q r : r < b -> a = b * q + r -> a / b = q.
Proof. intros H E. symmetry. exact (N.div_unique a b q r H E). Qed.

Lemma mod_is a b q r : r < b -> a = b * q + r -> a mod b = r.
Proof. intros H E. symmetry. exact (N.mod_unique a b q r H E). Qed.

Ltac halves b k := let H := fresh in pose proof (N.div_mod b k ltac:(discriminate)) as H; let H' := fresh in pose proof (N.mod_lt b k ltac:(discriminate)) as H'.

Lemma bits2 a b c : a < 64 -> b < 64 -> c < 64 -> let n := (a * 64 + b) * 64 + c in
  n / 1024 = a * 4 + b / 16 /\ n / 4 mod 256 = (b mod 16) * 16 + c / 4.
Proof.
  intros Ha Hb Hc n. halves b 16. halves c 4. split.
  - apply (div_is _ _ _ (b mod 16 * 64 + c)); subst n; lia.
  - apply (mod_is _ _ (a * 4 + b / 16)); [lia|]. apply (div_is _ _ _ (c mod 4)); subst n; lia.
Qed.

Lemma bits3 a b c d : a < 64 -> b < 64 -> c < 64 -> d < 64 -> let n := ((a * 64 + b) * 64 + c) * 64 + d in
  n / 65536 = a * 4 + b / 16 /\ n / 256 mod 256 = (b mod 16) * 16 + c / 4 /\ n mod 256 = (c mod 4) * 64 + d.
Proof.
  intros Ha Hb Hc Hd n. halves b 16. halves c 4. split; [|split].
  - apply (div_is _ _ _ (b mod 16 * 4096 + c * 64 + d)); subst n; lia.
  - apply (mod_is _ _ (a * 4 + b / 16)); [lia|]. apply (div_is _ _ _ (c mod 4 * 64 + d)); subst n; lia.
  - apply (mod_is _ _ (a * 1024 + b * 16 + c / 4)); subst n; lia.
Qed.

Lemma val64 c v : b64_val c = Some v -> exists k, v = N.of_nat k /\ digit64 c k /\ v < 64.
Proof. intros H. apply val_digit64 in H. exists (N.to_nat v). pose proof (digit64_bound _ _ H). repeat split; [lia | exact H | lia]. Qed.

Lemma b64_reads t x : b64_decode t = Some x <-> reads_64 t x.
Proof.
  split.
  - revert x. remember (length t) as n eqn:En. assert (L : (length t <= n)%nat) by lia. clear En. revert t L.
    induction n as [|n IH]; intros t L x H; destruct t as [|c0 t]; try (cbn in L; lia); try (injection H as <-; constructor).
    destruct t as [|c1 [|c2 [|c3 t]]]; try discriminate H. cbn [b64_decode] in H.
    destruct (b64_val c0) as [v0|] eqn:E0; [|discriminate]. destruct (b64_val c1) as [v1|] eqn:E1; [|discriminate].
    apply val64 in E0 as (k0 & -> & D0 & B0). apply val64 in E1 as (k1 & -> & D1 & B1).
    destruct (N.eqb_spec c2 61) as [->|N2].
    { destruct (N.eqb_spec c3 61) as [->|]; [|discriminate]. destruct t; [|discriminate]. injection H as <-.
      rewrite <- bits1 by exact B1. exact (b_one c0 c1 k0 k1 D0 D1). }
    destruct (b64_val c2) as [v2|] eqn:E2; [|discriminate]. apply val64 in E2 as (k2 & -> & D2 & B2).
    destruct (N.eqb_spec c3 61) as [->|N3].
    { destruct t; [|discriminate]. injection H as <-. destruct (bits2 _ _ _ B0 B1 B2) as [<- <-]. exact (b_two c0 c1 c2 k0 k1 k2 _ D0 D1 D2 eq_refl). }
    destruct (b64_val c3) as [v3|] eqn:E3; [|discriminate]. apply val64 in E3 as (k3 & -> & D3 & B3).
    destruct (b64_decode t) as [y|] eqn:E; [|discriminate]. injection H as <-. destruct (bits3 _ _ _ _ B0 B1 B2 B3) as (<- & <- & <-).
    apply (b_three c0 c1 c2 c3 k0 k1 k2 k3 _ t y D0 D1 D2 D3 eq_refl). apply IH; [cbn in L; lia | exact E].
  - induction 1 as [|c0 c1 v0 v1 D0 D1|c0 c1 c2 v0 v1 v2 n D0 D1 D2 ->|c0 c1 c2 c3 v0 v1 v2 v3 n t x D0 D1 D2 D3 -> H IH].
    + reflexivity.
    + pose proof (digit64_bound _ _ D1). rewrite bits1 by lia. cbn [app bs b64_decode]. change (b64_decode (c0 :: c1 :: [61; 61]) = Some [N.of_nat v0 * 4 + N.of_nat v1 / 16]).
      cbn [b64_decode]. rewrite (digit64_val _ _ D0), (digit64_val _ _ D1). reflexivity.
    + pose proof (digit64_bound _ _ D0). pose proof (digit64_bound _ _ D1). pose proof (digit64_bound _ _ D2).
      destruct (bits2 (N.of_nat v0) (N.of_nat v1) (N.of_nat v2)) as [-> ->]; try lia.
      change (b64_decode [c0; c1; c2; 61] = Some [N.of_nat v0 * 4 + N.of_nat v1 / 16; N.of_nat v1 mod 16 * 16 + N.of_nat v2 / 4]).
      cbn [b64_decode]. rewrite (digit64_val _ _ D0), (digit64_val _ _ D1), (digit64_eq _ _ D2), (digit64_val _ _ D2). reflexivity.
    + pose proof (digit64_bound _ _ D0). pose proof (digit64_bound _ _ D1). pose proof (digit64_bound _ _ D2). pose proof (digit64_bound _ _ D3).
      destruct (bits3 (N.of_nat v0) (N.of_nat v1) (N.of_nat v2) (N.of_nat v3)) as (-> & -> & ->); try lia.
      cbn [app b64_decode]. rewrite (digit64_val _ _ D0), (digit64_val _ _ D1), (digit64_eq _ _ D2), (digit64_val _ _ D2), (digit64_eq _ _ D3), (digit64_val _ _ D3), IH. reflexivity.
Qed.

Lemma content_iff b t x : Forall (fun r => encoded_char r = true) t -> (decode_content b t = Some x <-> content [b] t x).
Proof.
  intros F. unfold decode_content, content.
  assert (I2 : forall u v : N, In [b] [[u]; [v]] <-> (b =? u) || (b =? v) = true).
  { intros u v. rewrite orb_true_iff, !N.eqb_eq. split.
    - intros [E|[E|[]]]; injection E as <-; auto.
    - intros [->| ->]; [left | right; left]; reflexivity. }
  change [bs "Q"; bs "q"] with [[81]; [113]]. change [bs "B"; bs "b"] with [[66]; [98]]. rewrite !I2.
  destruct ((b =? 66) || (b =? 98)) eqn:EB.
  - assert (EQ : (b =? 81) || (b =? 113) = false) by lia. rewrite EQ, b64_reads. intuition discriminate.
  - destruct ((b =? 81) || (b =? 113)); [rewrite q_reads by exact F|]; intuition discriminate.
Qed.

Lemma convert_iff rd c x v : convert rd c x = Some v <-> converted rd c x v.
Proof.
  assert (EF : forall k, to_lower k = k -> (equal_fold k c = true <-> to_lower c = k)).
  { intros k K. split.
    - intros H. apply equal_fold_in in H. congruence.
    - intros H. unfold equal_fold. rewrite K, H. clear. induction k as [|a k IH]; [reflexivity|]. cbn. now rewrite N.eqb_refl. }
  pose proof (EF (bs "utf-8") eq_refl) as E1. pose proof (EF (bs "iso-8859-1") eq_refl) as E2. pose proof (EF (bs "us-ascii") eq_refl) as E3.
  assert (A : flat_map (fun b => if 128 <=? b then encode1 rune_error else [b]) x = encode (map (fun b => if b <? 128 then b else 65533) x)).
  { clear. induction x as [|b x IH]; [reflexivity|]. cbn [flat_map map].
    assert (E : (if 128 <=? b then encode1 rune_error else [b]) = encode1 (if b <? 128 then b else 65533)).
    { destruct (N.leb_spec 128 b), (N.ltb_spec b 128); try lia; [reflexivity|]. unfold encode1. destruct (N.ltb_spec b 128); [reflexivity | lia]. }
    exact (f_equal2 (@app N) E IH). }
  unfold convert. rewrite A. split.
  - destruct (equal_fold (bs "utf-8") c) eqn:H1; [intros [= <-]; apply v_utf8; now apply E1|].
    destruct (equal_fold (bs "iso-8859-1") c) eqn:H2; [intros [= <-]; apply v_latin1; now apply E2|].
    destruct (equal_fold (bs "us-ascii") c) eqn:H3; [intros [= <-]; apply v_ascii; now apply E3|].
    destruct rd as [f|]; [|discriminate]. intros H. apply (v_reader _ _ _ f v); [|reflexivity | exact H].
    intros [X|[X|[X|[]]]]; symmetry in X; [apply E1 in X | apply E2 in X | apply E3 in X]; congruence.
  - intros [H|H|H|f w N E H].
    + apply E1 in H. rewrite H. reflexivity.
    + destruct (equal_fold (bs "utf-8") c) eqn:H1; [pose proof (proj1 E1 eq_refl) as Q; rewrite H in Q; discriminate|]. apply E2 in H. rewrite H. reflexivity.
    + destruct (equal_fold (bs "utf-8") c) eqn:H1; [pose proof (proj1 E1 eq_refl) as Q; rewrite H in Q; discriminate|]. destruct (equal_fold (bs "iso-8859-1") c) eqn:H2; [pose proof (proj1 E2 eq_refl) as Q; rewrite H in Q; discriminate|].
      apply E3 in H. rewrite H. reflexivity.
    + destruct (equal_fold (bs "utf-8") c) eqn:H1; [exfalso; apply N; rewrite (proj1 E1 eq_refl); now left|].
      destruct (equal_fold (bs "iso-8859-1") c) eqn:H2; [exfalso; apply N; rewrite (proj1 E2 eq_refl); right; now left|].
      destruct (equal_fold (bs "us-ascii") c) eqn:H3; [exfalso; apply N; rewrite (proj1 E3 eq_refl); right; right; now left|].
      rewrite E. exact H.
Qed.

Lemma content_single en t x : content en t x -> exists b, en = [b].
Proof. intros [[H _]|[H _]]; destruct H as [<-|[<-|[]]]; eexists; reflexivity. Qed.

Lemma value_iff rd c en t v : nonempty_all charset_char c -> nonempty_all charset_char en -> nonempty_all encoded_char t ->
  (stands_for rd c en t v <-> encoded_word_value rd (encode (encoded c en t)) = v).
Proof.
  intros Hc He Ht. unfold encoded_word_value. rewrite (word_decode_encoded rd c en t Hc He Ht).
  assert (ID : encode (encoded c en t) = encoded c en t).
  { apply encode_id. apply charset_ascii in Hc as (_ & Hc & _). apply charset_ascii in He as (_ & He & _). apply enc_ascii in Ht as (_ & Ht & _).
    unfold encoded. repeat (apply Forall_app; split); try assumption; repeat constructor. }
  rewrite ID. destruct Ht as [_ Ht].
  assert (Dec : forall u, (exists x, content en t x /\ converted rd c x u) <->
    match en with [b] => match decode_content b t with Some x => convert rd c x | None => None end | _ => None end = Some u).
  { intros u. split.
    - intros (x & C & V). destruct (content_single _ _ _ C) as [b ->]. apply content_iff in C; [|exact Ht]. rewrite C. now apply convert_iff.
    - destruct en as [|b [|]]; try discriminate. destruct (decode_content b t) as [x|] eqn:E; [|discriminate]. intros H. exists x. split; [now apply content_iff | now apply convert_iff]. }
  unfold stands_for. rewrite Dec.
  destruct (match en with [b] => match decode_content b t with Some x => convert rd c x | None => None end | _ => None end) as [u|] eqn:E.
  - split.
    + intros [[= <-]|[H _]]; [reflexivity|]. exfalso. assert (Q : Some u = Some u) by reflexivity. apply Dec in Q as (x & C & V). exact (H x u C V).
    + intros <-. now left.
  - split.
    + intros [[=]|[_ ->]]; reflexivity.
    + intros <-. right. split; [|reflexivity]. intros x v' C V. assert (Q : exists x, content en t x /\ converted rd c x v') by eauto. apply Dec in Q. discriminate.
Qed.

(** Every encoded word stands for exactly one text. *)
Theorem C50_one_value rd c en t : nonempty_all charset_char c -> nonempty_all charset_char en -> nonempty_all encoded_char t ->
  exists v, stands_for rd c en t v /\ forall v', stands_for rd c en t v' -> v' = v.
Proof.
  intros Hc He Ht. eexists. split; [apply value_iff; auto|]. intros v' H. apply value_iff in H; auto.
Qed.

(** A display name made of encoded words is the concatenation of what they stand for. *)
Theorem C50_encoded_words_decoded : forall e s (ps : list piece) g l d g', ps <> [] ->
  Forall (piece_ok (reader (wenv_of e))) ps -> plain_dots l -> plain_dots d -> ogap g -> ogap g' ->
  decode s = flat_map piece_text ps ++ g ++ (bs "<" ++ l ++ bs "@" ++ d ++ bs ">") ++ g' ->
  ParseAddressList e s = Ret (Some [mkAddr (flat_map p_value ps) (encode l ++ bs "@" ++ encode d)]) None.
Proof.
  intros e s ps g l d g' N H Hl Hd Hg Hg' D. set (ws := map (fun p => (p_gap p, encoded (p_charset p) (p_enc p) (p_text p))) ps).
  assert (V : enc_values (reader (wenv_of e)) ws = flat_map p_value ps).
  { subst ws. clear - H. induction H as [|p ps (_ & Hc & He & Ht & Hv) H IH]; [reflexivity|]. unfold enc_values in *. cbn [map flat_map snd]. rewrite IH. f_equal. now apply value_iff. }
  rewrite <- V. apply (C27_encoded_words_joined e s ws g l d g'); auto.
  - subst ws. destruct ps; [congruence | discriminate].
  - subst ws. clear - H. induction H as [|p ps (Hp & Hc & He & Ht & Hv) H IH]; constructor; auto. cbn [fst snd]. split; [exact Hp|].
    exists (p_charset p), (p_enc p), (p_text p). repeat split; auto; try apply Hc; try apply He; try apply Ht.
  - rewrite D. f_equal. subst ws. unfold enc_text. clear. induction ps as [|p ps IH]; [reflexivity|]. cbn [map flat_map fst snd]. now rewrite IH.
Qed.

(** ** A case that meets the hypotheses *)
Example C50_met : ParseAddressList env0 (bs "=?ISO-8859-1?q?caf=e9_?= =?us-ascii?B?YeliYg==?= =?x?Q?y?= <a@b>") =
  Ret (Some [mkAddr (bs "caf" ++ [195; 169; 32] ++ bs "a" ++ [239; 191; 189] ++ bs "bb" ++ bs "=?x?Q?y?=") (bs "a@b")]) None.
Proof.
  apply (C50_encoded_words_decoded env0 _
    [mkPiece [] (bs "ISO-8859-1") (bs "q") (bs "caf=e9_") (bs "caf" ++ [195; 169; 32]);
     mkPiece (bs " ") (bs "us-ascii") (bs "B") (bs "YeliYg==") (bs "a" ++ [239; 191; 189] ++ bs "bb");
     mkPiece (bs " ") (bs "x") (bs "Q") (bs "y") (bs "=?x?Q?y?=")] (bs " ") (bs "a") (bs "b") []);
    auto using space_gap, nogap; try (apply one_dots; reflexivity); try discriminate.
  - constructor; [|constructor; [|constructor; [|constructor]]]; (split; [auto using space_gap, nogap|]); cbn [p_charset p_enc p_text p_value];
      (split; [split; [discriminate | repeat constructor]|]); (split; [split; [discriminate | repeat constructor]|]); (split; [split; [discriminate | repeat constructor]|]).
    + left. exists (bs "caf" ++ [233; 32]). split; [|exact (v_latin1 None (bs "ISO-8859-1") (bs "caf" ++ [233; 32]) eq_refl)]. left. split; [right; now left|].
      do 3 (apply q_char; [cbn; lia | cbn; intuition discriminate|]). apply (q_hex 101 57 14 9 (bs "_") (bs " ")); [right; reflexivity | left; reflexivity|]. apply (q_space [] []). constructor.
    + left. exists [97; 233; 98; 98]. split; [|exact (v_ascii None (bs "us-ascii") [97; 233; 98; 98] eq_refl)]. right. split; [now left|].
      exact (b_three 89 101 108 105 24 30 37 34 _ (bs "Yg==") [98] eq_refl eq_refl eq_refl eq_refl eq_refl (b_one 89 103 24 32 eq_refl eq_refl)).
    + right. split; [|reflexivity]. intros x v' _ V. destruct V as [V|V|V|f v V R]; discriminate.
Qed.
