(** C27-C30: encoded words. *)
From Coq Require Import String List NArith ZArith Bool Arith Lia ZifyN ZifyBool Zify.
From Verif Require Import Lexer Utf8 Strs Mime GoTime Walker Api Utf8Facts DateSpec AddrSpec CharFacts PropApi
  ScanSpec AddrText TextLang TextScan PropText PropAddr.
Import ListNotations.
Local Open Scope N_scope.

(** * C27: encoded words with optional gaps between them *)

(** the texts: gap, encoded word, gap, encoded word, ... *)
Definition enc_text (ws : list (list rune * list rune)) : list rune := flat_map (fun gw => fst gw ++ snd gw) ws.

Definition enc_values (rd : charset_reader) (ws : list (list rune * list rune)) : gostring :=
  flat_map (fun gw => encoded_word_value rd (encode (snd gw))) ws.

Lemma group_encs ws : ws <> [] -> Forall (fun gw => ogap (fst gw) /\ encoded_word (snd gw)) ws ->
  exists l rest, let items := (fst (hd ([], []) ws), IEnc l) :: rest in
    name_text items = enc_text ws /\ items_ok true false items /\ (forall g i r, rest = (g, i) :: r -> g <> []) /\
    forall rd (n : gostring) p, joins p (IEnc l) = true -> name_from rd n p items = n ++ enc_values rd ws.
Proof.
  intros N H. induction H as [|[g w] ws [Hg Hw] H IH]; [congruence|]. cbn [fst snd hd] in *. destruct ws as [|[g2 w2] ws].
  - exists [w], []. cbv zeta. split; [|split; [|split]].
    + unfold name_text, enc_text. cbn. now rewrite !app_nil_r.
    + cbn [items_ok item_ok is_run]. split; [now left|]. repeat split; auto; discriminate.
    + discriminate.
    + intros rd n p J. cbn [name_from]. rewrite J. cbn [app item_value enc_values flat_map snd]. reflexivity.
  - destruct IH as (l & rest & IH); [discriminate|]. cbv zeta in *. cbn [hd fst] in IH. destruct IH as (T & O & R & V). destruct g2 as [|r2 g2].
    + (* no gap: one run *)
      exists (w :: l), rest. split; [|split; [|split]].
      * unfold name_text, enc_text in *. cbn [flat_map fst snd item_text concat app] in *. rewrite <- !app_assoc. do 2 f_equal. exact T.
      * cbn [items_ok item_ok is_run] in *. destruct O as (_ & (_ & O1 & O2) & O3 & O4). split; [now left|]. repeat split; auto; discriminate.
      * exact R.
      * intros rd n p J. specialize (V rd (n ++ encoded_word_value rd (encode w)) p J). cbn [name_from] in *. assert (J' : joins p (IEnc l) = true) by (destruct p as [[]|]; auto). rewrite J' in V. rewrite J.
        cbn [app item_value flat_map] in *. rewrite <- app_assoc in V. etransitivity; [etransitivity; [|exact V]; destruct rest as [|[g0 [] ] rest]; reflexivity|]. unfold enc_values. cbn [flat_map snd]. now rewrite <- app_assoc.
    + exists [w], ((r2 :: g2, IEnc l) :: rest). split; [|split; [|split]].
      * change (name_text ((g, IEnc [w]) :: ?x)) with ((g ++ concat [w]) ++ name_text x). rewrite T. unfold enc_text. cbn [flat_map fst snd concat]. now rewrite app_nil_r.
      * cbn [items_ok item_ok is_run] in *. destruct O as (O1 & O2 & _ & O4). split; [left; exact Hg|]. split; [split; [reflexivity|]; split; [discriminate | now constructor]|]. split; [discriminate|].
        split; [exact O1|]. split; [exact O2|]. split; [discriminate | exact O4].
      * intros g3 i r E. injection E as <- _ _. discriminate.
      * intros rd n p J. assert (J' : joins p (IEnc [w]) = true) by (destruct p as [[]|]; auto). cbn [name_from] in *. rewrite J'. specialize (V rd (n ++ [] ++ item_value rd (IEnc [w])) (Some (IEnc [w])) eq_refl).
        etransitivity; [exact V|]. cbn [app item_value flat_map]. unfold enc_values. cbn [flat_map snd]. rewrite app_nil_r. now rewrite <- app_assoc.
Qed.

(** C27: the values of the encoded words are put together with nothing in between. *)
Theorem C27_encoded_words_joined : forall e s ws g l d g', ws <> [] -> Forall (fun gw => ogap (fst gw) /\ encoded_word (snd gw)) ws ->
  plain_dots l -> plain_dots d -> ogap g -> ogap g' ->
  decode s = enc_text ws ++ g ++ (bs "<" ++ l ++ bs "@" ++ d ++ bs ">") ++ g' ->
  ParseAddressList e s = Ret (Some [mkAddr (enc_values (reader (wenv_of e)) ws) (encode l ++ bs "@" ++ encode d)]) None.
Proof.
  intros e s ws g l d g' N H Hl Hd Hg Hg' D. destruct (group_encs ws N H) as (el & rest & T & OK & _ & V). apply (one_mailbox_value e s true).
  rewrite D, <- T. set (items := (fst (hd ([], []) ws), IEnc el) :: rest) in *.
  assert (E : name_value (reader (wenv_of e)) items = enc_values (reader (wenv_of e)) ws) by (unfold name_value; rewrite (V (reader (wenv_of e)) [] None eq_refl); reflexivity).
  rewrite <- E. apply mm_named; auto; [apply name_true; split; [reflexivity | exact OK] | now left | now apply plain_angle].
Qed.

(** * What decoding does to a well-formed encoded word *)

Definition encoded (c en t : list rune) : list rune := bs "=?" ++ c ++ bs "?" ++ en ++ bs "?" ++ t ++ bs "?=".

Lemma charset_ascii c : nonempty_all charset_char c -> c <> [] /\ Forall ascii c /\ Forall (fun r => r <> 63) c.
Proof.
  intros [N F]. split; [exact N|]. split; eapply Forall_impl; try exact F; intros r H; unfold charset_char in H.
  - unfold ascii. unfold in_range in H. apply orb_prop in H as [H|H]; [lia|]. apply existsb_exists in H as (x & Hx & E). apply N.eqb_eq in E. subst x.
    assert (G : forallb (fun x => x <? 128) (bs "!#$%&'*+-^_`{|}~") = true) by reflexivity. rewrite forallb_forall in G. specialize (G _ Hx). lia.
  - intros ->. discriminate H.
Qed.

Lemma enc_ascii t : nonempty_all encoded_char t -> t <> [] /\ Forall ascii t /\ Forall (fun r => r <> 63) t.
Proof.
  intros [N F]. split; [exact N|]. split; eapply Forall_impl; try exact F; intros r H; unfold encoded_char in H; apply andb_prop in H as [H H2]; apply andb_prop in H as [_ H].
  - unfold ascii. lia.
  - intros ->. discriminate H2.
Qed.

Lemma encode_id c : Forall ascii c -> encode c = c.
Proof. intros H. now apply encode_ascii. Qed.

Lemma count_none c : Forall (fun r => r <> 63) c -> count_byte 63 c = 0%nat.
Proof. intros H. unfold count_byte. induction H as [|r c Hr H IH]; [reflexivity|]. cbn [filter]. destruct (N.eqb_spec 63 r); [congruence | exact IH]. Qed.

Lemma count_app2 c a b : count_byte c (a ++ b) = (count_byte c a + count_byte c b)%nat.
Proof. unfold count_byte. now rewrite filter_app, app_length. Qed.

Lemma split_first c x : Forall (fun r => r <> 63) c -> split_at 63 (c ++ 63 :: x) = Some (c, 63 :: x).
Proof. intros H. induction H as [|r c Hr H IH]; [reflexivity|]. cbn [app split_at]. destruct (N.eqb_spec r 63); [congruence|]. now rewrite IH. Qed.

Definition word_part (c : list rune) : Prop := c <> [] /\ Forall ascii c /\ Forall (fun r => r <> 63) c.

Lemma word_decode_parts rd c en t : word_part c -> word_part en -> word_part t ->
  word_decode rd (encode (encoded c en t)) = match en with [b] => match decode_content b t with Some x => convert rd c x | None => None end | _ => None end.
Proof.
  intros (Nc & Ac & Qc) (Ne & Ae & Qe) (Nt & At & Qt).
  unfold encoded. rewrite encode_id by (repeat (apply Forall_app; split); auto; repeat constructor).
  set (w := bs "=?" ++ c ++ bs "?" ++ en ++ bs "?" ++ t ++ bs "?=").
  assert (Lw : length w = (6 + length c + length en + length t)%nat) by (subst w; rewrite !app_length; cbn [length bs list_ascii_of_string map]; lia).
  assert (length c <> 0 /\ length en <> 0 /\ length t <> 0)%nat as (L1 & L2 & L3) by (destruct c, en, t; try congruence; cbn; lia).
  unfold word_decode. replace (Nat.ltb (length w) 8) with false by (symmetry; apply Nat.ltb_ge; lia).
  replace (has_prefix (bs "=?") w) with true by reflexivity.
  replace (has_suffix (bs "?=") w) with true.
  2:{ subst w. unfold has_suffix. replace (bs "=?" ++ c ++ bs "?" ++ en ++ bs "?" ++ t ++ bs "?=") with ((bs "=?" ++ c ++ bs "?" ++ en ++ bs "?" ++ t) ++ bs "?=") by (now rewrite <- !app_assoc). rewrite rev_app_distr. reflexivity. }
  replace (Nat.eqb (count_byte 63 w) 4) with true.
  2:{ subst w. rewrite !count_app2, (count_none c Qc), (count_none en Qe), (count_none t Qt). reflexivity. }
  cbn [orb negb]. rewrite Lw. replace (firstn _ (skipn 2 w)) with (c ++ 63 :: en ++ 63 :: t).
  2:{ subst w. change (skipn 2 (bs "=?" ++ ?x)) with x. replace (c ++ bs "?" ++ en ++ bs "?" ++ t ++ bs "?=") with ((c ++ 63 :: en ++ 63 :: t) ++ bs "?=") by (rewrite <- !app_assoc; cbn [app]; now rewrite <- app_assoc).
      rewrite firstn_app. replace (6 + length c + length en + length t - 4)%nat with (length (c ++ 63 :: en ++ 63 :: t)) by (rewrite !app_length; cbn [length]; rewrite app_length; cbn [length]; lia).
      rewrite firstn_all, Nat.sub_diag. cbn [firstn]. now rewrite app_nil_r. }
  rewrite split_first by exact Qc. destruct c as [|c0 c]; [congruence|]. destruct en as [|b1 [|b2 en]]; [congruence| |].
  - cbn [app]. reflexivity.
  - cbn [app]. inversion_clear Qe as [|? ? _ Q2]. apply Forall_inv in Q2. destruct (N.eqb_spec b2 63); [congruence | reflexivity].
Qed.

Lemma word_decode_encoded rd c en t : nonempty_all charset_char c -> nonempty_all charset_char en -> nonempty_all encoded_char t ->
  word_decode rd (encode (encoded c en t)) = match en with [b] => match decode_content b t with Some x => convert rd c x | None => None end | _ => None end.
Proof. intros Hc He Ht. apply word_decode_parts; [exact (charset_ascii c Hc) | exact (charset_ascii en He) | exact (enc_ascii t Ht)]. Qed.

(** * C28 *)

(** an encoded word that cannot be decoded contributes its own text *)
Theorem C28_kept_verbatim : forall e s ws g l d g', ws <> [] -> Forall (fun gw => ogap (fst gw) /\ encoded_word (snd gw)) ws ->
  Forall (fun gw => word_decode (reader (wenv_of e)) (encode (snd gw)) = None) ws ->
  plain_dots l -> plain_dots d -> ogap g -> ogap g' ->
  decode s = enc_text ws ++ g ++ (bs "<" ++ l ++ bs "@" ++ d ++ bs ">") ++ g' ->
  ParseAddressList e s = Ret (Some [mkAddr (encode (concat (map snd ws))) (encode l ++ bs "@" ++ encode d)]) None.
Proof.
  intros e s ws g l d g' N H U Hl Hd Hg Hg' D. rewrite (C27_encoded_words_joined e s ws g l d g'); auto. do 4 f_equal.
  clear - U. induction U as [|[g w] ws Hw U IH]; [reflexivity|]. cbn [snd] in Hw. unfold enc_values in *. cbn [flat_map snd map concat]. rewrite IH, encode_app. f_equal. unfold encoded_word_value. now rewrite Hw.
Qed.

Definition hex_char (r : rune) : bool := in_range 48 57 r || in_range 65 70 r || in_range 97 102 r.
Definition base64_char (r : rune) : bool := in_range 65 90 r || in_range 97 122 r || in_range 48 57 r || (r =? 43) || (r =? 47).
Definition built_in : list gostring := [bs "utf-8"; bs "iso-8859-1"; bs "us-ascii"].

(** reasons why =?c?en?t?= cannot be decoded *)
Inductive hopeless (rd : charset_reader) (c en t : list rune) : Prop :=
| bad_encoding : ~ In en [bs "B"; bs "b"; bs "Q"; bs "q"] -> hopeless rd c en t
| bad_q : forall p x, In en [bs "Q"; bs "q"] -> t = p ++ bs "=" ++ x -> ~ In 61 p ->
    (forall h1 h2 y, x = h1 :: h2 :: y -> hex_char h1 && hex_char h2 = false) -> hopeless rd c en t
| bad_length : In en [bs "B"; bs "b"] -> (Nat.modulo (length t) 4 <> 0)%nat -> hopeless rd c en t
| bad_char : forall r, In en [bs "B"; bs "b"] -> In r t -> base64_char r = false -> r <> 61 -> hopeless rd c en t
| no_reader : rd = None -> ~ In (to_lower c) built_in -> hopeless rd c en t
| reader_error : forall f, rd = Some f -> ~ In (to_lower c) built_in -> (forall x, f (to_lower c) x = None) -> hopeless rd c en t.

Lemma b64_val_char r v : b64_val r = Some v -> base64_char r = true.
Proof. unfold b64_val, base64_char. destruct (in_range 65 90 r), (in_range 97 122 r), (in_range 48 57 r), (r =? 43), (r =? 47); auto; discriminate. Qed.

Lemma b64_shape n : forall s x, (length s <= n)%nat -> b64_decode s = Some x ->
  Nat.modulo (length s) 4 = 0%nat /\ Forall (fun r => base64_char r = true \/ r = 61) s.
Proof.
  induction n as [|n IH]; intros s x L H; [destruct s; [split; [reflexivity | constructor] | cbn in L; lia]|].
  destruct s as [|c0 [|c1 [|c2 [|c3 s]]]]; try discriminate H; [split; [reflexivity | constructor]|]. cbn [b64_decode] in H.
  destruct (b64_val c0) eqn:E0; [|discriminate]. destruct (b64_val c1) eqn:E1; [|discriminate]. apply b64_val_char in E0, E1.
  assert (G : s = [] /\ (base64_char c2 = true \/ c2 = 61) /\ (base64_char c3 = true \/ c3 = 61) \/
              (exists y, b64_decode s = Some y) /\ base64_char c2 = true /\ base64_char c3 = true).
  { destruct (N.eqb_spec c2 61).
    - destruct (N.eqb_spec c3 61); [|discriminate]. destruct s; [|discriminate]. left. auto.
    - destruct (b64_val c2) eqn:E2; [|discriminate]. apply b64_val_char in E2. destruct (N.eqb_spec c3 61).
      + destruct s; [|discriminate]. left. auto.
      + destruct (b64_val c3) eqn:E3; [|discriminate]. apply b64_val_char in E3. right. destruct (b64_decode s); [eauto | discriminate]. }
  destruct G as [(-> & G2 & G3)|((y & Y) & G2 & G3)].
  - split; [reflexivity|]. repeat (constructor; auto).
  - destruct (IH s y) as [IH1 IH2]; [cbn in L; lia | exact Y|]. split; [|repeat (constructor; auto)].
    change (length (c0 :: c1 :: c2 :: c3 :: s)) with (4 + length s)%nat. replace (4 + length s)%nat with (length s + 1 * 4)%nat by lia. now rewrite Nat.mod_add.
Qed.

Lemma from_hex_char r v : from_hex r = Some v -> hex_char r = true.
Proof. unfold from_hex, hex_char. destruct (in_range 48 57 r), (in_range 65 70 r), (in_range 97 102 r); auto; discriminate. Qed.

Lemma q_bad p x : ~ In 61 p -> (forall h1 h2 y, x = h1 :: h2 :: y -> hex_char h1 && hex_char h2 = false) -> q_decode (p ++ 61 :: x) = None.
Proof.
  intros N H. induction p as [|r p IH].
  - cbn. destruct x as [|h1 [|h2 y]]; auto. specialize (H h1 h2 y eq_refl). destruct (from_hex h1) eqn:E1, (from_hex h2) eqn:E2; auto. apply from_hex_char in E1, E2. rewrite E1, E2 in H. discriminate.
  - cbn [app q_decode]. rewrite IH by (intros Hp; apply N; now right). destruct (r =? 95); [reflexivity|]. destruct (N.eqb_spec r 61); [exfalso; apply N; now left|]. now destruct (_ || _)%bool.
Qed.

Lemma equal_fold_in k c : equal_fold k c = true -> to_lower k = to_lower c.
Proof.
  unfold equal_fold. generalize (to_lower k) (to_lower c). intros u. induction u as [|a u IH]; intros [|b m] H; try discriminate; auto.
  cbn in H. apply andb_prop in H as [E H]. apply N.eqb_eq in E. subst. f_equal. now apply IH.
Qed.

Lemma convert_unknown rd c x : ~ In (to_lower c) built_in -> convert rd c x = match rd with None => None | Some f => f (to_lower c) x end.
Proof.
  intros N. unfold convert.
  destruct (equal_fold (bs "utf-8") c) eqn:E1; [exfalso; apply N; apply equal_fold_in in E1; rewrite <- E1; now left|].
  destruct (equal_fold (bs "iso-8859-1") c) eqn:E2; [exfalso; apply N; apply equal_fold_in in E2; rewrite <- E2; right; now left|].
  destruct (equal_fold (bs "us-ascii") c) eqn:E3; [exfalso; apply N; apply equal_fold_in in E3; rewrite <- E3; right; right; now left|]. reflexivity.
Qed.

Lemma hopeless_decode rd c en t : nonempty_all charset_char c -> nonempty_all charset_char en -> nonempty_all encoded_char t ->
  hopeless rd c en t -> word_decode rd (encode (encoded c en t)) = None.
Proof.
  intros Hc He Ht H. rewrite word_decode_encoded by assumption. destruct en as [|b [|b2 en]]; [reflexivity| |reflexivity].
  assert (B : forall k1 k2, In [b] [[k1]; [k2]] -> (b =? k1) || (b =? k2) = true).
  { intros k1 k2 [E|[E|[]]]; injection E as ->; rewrite N.eqb_refl; auto using orb_true_r. }
  destruct H as [H|p x H1 H2 H3 H4|H1 H2|r H1 H2 H3 H4|H1 H2|f H1 H2 H3].
  - unfold decode_content. destruct (N.eqb_spec b 66); [exfalso; apply H; subst; now left|]. destruct (N.eqb_spec b 98); [exfalso; apply H; subst; right; now left|].
    destruct (N.eqb_spec b 81); [exfalso; apply H; subst; right; right; now left|]. destruct (N.eqb_spec b 113); [exfalso; apply H; subst; right; right; right; now left|]. reflexivity.
  - assert (decode_content b t = None) as ->; [|reflexivity]. unfold decode_content. specialize (B 81 113 H1). destruct ((b =? 66) || (b =? 98)) eqn:E; [exfalso; lia|]. rewrite B, H2. now apply q_bad.
  - assert (decode_content b t = None) as ->; [|reflexivity]. unfold decode_content. specialize (B 66 98 H1). rewrite B. destruct (b64_decode t) eqn:E; [|reflexivity]. exfalso. apply H2. exact (proj1 (b64_shape (length t) t _ (le_n _) E)).
  - assert (decode_content b t = None) as ->; [|reflexivity]. unfold decode_content. specialize (B 66 98 H1). rewrite B. destruct (b64_decode t) eqn:E; [|reflexivity]. exfalso. pose proof (proj2 (b64_shape (length t) t _ (le_n _) E)) as F.
    rewrite Forall_forall in F. destruct (F r H2); congruence.
  - destruct (decode_content b t); [|reflexivity]. rewrite convert_unknown by exact H2. now rewrite H1.
  - destruct (decode_content b t); [|reflexivity]. rewrite convert_unknown by exact H2. rewrite H1. apply H3.
Qed.

Theorem C28_undecodable : forall e s g0 c en t g l d g', ogap g0 -> nonempty_all charset_char c -> nonempty_all charset_char en -> nonempty_all encoded_char t ->
  hopeless (reader (wenv_of e)) c en t -> plain_dots l -> plain_dots d -> ogap g -> ogap g' ->
  decode s = (g0 ++ encoded c en t) ++ g ++ (bs "<" ++ l ++ bs "@" ++ d ++ bs ">") ++ g' ->
  ParseAddressList e s = Ret (Some [mkAddr (encoded c en t) (encode l ++ bs "@" ++ encode d)]) None.
Proof.
  intros e s g0 c en t g l d g' H0 Hc He Ht Hu Hl Hd Hg Hg' D.
  rewrite (C28_kept_verbatim e s [(g0, encoded c en t)] g l d g'); auto.
  - cbn [map snd concat]. rewrite app_nil_r. rewrite encode_id; [reflexivity|]. unfold encoded. repeat (apply Forall_app; split); try (now apply charset_ascii); try (now apply enc_ascii); repeat constructor.
  - discriminate.
  - constructor; [|constructor]. split; [exact H0|]. exists c, en, t. auto.
  - constructor; [|constructor]. now apply hopeless_decode.
  - rewrite D. unfold enc_text. cbn [flat_map fst snd]. now rewrite app_nil_r.
Qed.

(** * C29: encoding a name and parsing *)

Definition hex (v : N) : rune := if v <? 10 then 48 + v else 55 + v.

(** RFC 2047, 5(3): letters, digits and ! * + - / stand for themselves, a space is written _ *)
Definition q_safe (b : N) : bool := in_range 65 90 b || in_range 97 122 b || in_range 48 57 b || existsb (N.eqb b) (bs "!*+-/").
Definition q_byte (b : N) : list rune := if q_safe b then [b] else if b =? 32 then bs "_" else [61; hex (b / 16); hex (b mod 16)].
Definition q_encode (n : gostring) : list rune := flat_map q_byte n.

Definition base64_digit (v : N) : rune :=
  if v <? 26 then 65 + v else if v <? 52 then 71 + v else if v <? 62 then v - 4 else if v =? 62 then 43 else 47.

Fixpoint base64 (n : gostring) : list rune :=
  match n with
  | [] => []
  | [a] => [base64_digit (a / 4); base64_digit ((a mod 4) * 16); 61; 61]
  | [a; b] => [base64_digit (a / 4); base64_digit ((a mod 4) * 16 + b / 16); base64_digit ((b mod 16) * 4); 61]
  | a :: b :: c :: n' => base64_digit (a / 4) :: base64_digit ((a mod 4) * 16 + b / 16) :: base64_digit ((b mod 16) * 4 + c / 64) :: base64_digit (c mod 64) :: base64 n'
  end.

Lemma below k (P : N -> bool) : forallb P (map N.of_nat (seq 0 k)) = true -> forall v, v < N.of_nat k -> P v = true.
Proof. intros H v L. rewrite forallb_forall in H. apply H, in_map_iff. exists (N.to_nat v). split; [apply N2Nat.id | apply in_seq; lia]. Qed.

Lemma q_byte_ok b x : b < 256 -> q_decode (q_byte b ++ x) = option_map (cons b) (q_decode x).
Proof.
  intros Hb. unfold q_byte. destruct (q_safe b) eqn:S.
  - cbn [app q_decode]. destruct (N.eqb_spec b 95); [subst; discriminate S|]. destruct (N.eqb_spec b 61); [subst; discriminate S|].
    replace (in_range 32 126 b) with true; [reflexivity|]. symmetry.
    pose proof (below 256 (fun v => implb (q_safe v) (in_range 32 126 v)) ltac:(vm_compute; reflexivity) b Hb) as G. cbn beta in G. now rewrite S in G.
  - destruct (N.eqb_spec b 32) as [->|N32]; [reflexivity|]. cbn [app q_decode N.eqb].
    assert (H1 : b / 16 < 16) by (apply N.div_lt_upper_bound; lia). assert (H2 : b mod 16 < 16) by (apply N.mod_lt; lia).
    assert (X : forall v, v < 16 -> from_hex (hex v) = Some v).
    { intros v Hv. pose proof (below 16 (fun v => match from_hex (hex v) with Some w => w =? v | None => false end) ltac:(vm_compute; reflexivity) v Hv) as G. cbn beta in G.
      destruct (from_hex (hex v)); [|discriminate]. apply N.eqb_eq in G. now subst. }
    change (61 =? 95) with false. change (61 =? 61) with true. cbn iota. rewrite (X _ H1), (X _ H2). replace (b / 16 * 16 + b mod 16) with b; [reflexivity|]. rewrite (N.div_mod b 16) at 1 by lia. lia.
Qed.

Lemma q_round_trip n : Forall (fun b => b < 256) n -> q_decode (q_encode n) = Some n.
Proof. intros H. induction H as [|b n Hb H IH]; [reflexivity|]. unfold q_encode in *. cbn [flat_map]. rewrite q_byte_ok by exact Hb. now rewrite IH. Qed.

Lemma base64_digit_ok v : v < 64 -> b64_val (base64_digit v) = Some v /\ (base64_digit v =? 61) = false.
Proof.
  intros Hv. pose proof (below 64 (fun v => match b64_val (base64_digit v) with Some w => w =? v | None => false end && negb (base64_digit v =? 61)) ltac:(vm_compute; reflexivity) v Hv) as G. cbn beta in G.
  apply andb_prop in G as [G1 G2]. apply negb_true_iff in G2. split; [|exact G2]. destruct (b64_val (base64_digit v)); [|discriminate]. apply N.eqb_eq in G1. now subst.
Qed.

Lemma b64_round_trip k : forall n, (length n <= k)%nat -> Forall (fun b => b < 256) n -> b64_decode (base64 n) = Some n.
Proof.
  induction k as [|k IH]; intros n L H; [destruct n; [reflexivity | cbn in L; lia]|].
  destruct n as [|a [|b [|c n]]]; [reflexivity| | |].
  - apply Forall_inv in H as Ha. cbn [base64 b64_decode]. assert (A1 : a / 4 < 64) by (apply N.div_lt_upper_bound; lia). assert (A2 : a mod 4 * 16 < 64) by (pose proof (N.mod_lt a 4 ltac:(lia)); lia).
    rewrite (proj1 (base64_digit_ok _ A1)), (proj1 (base64_digit_ok _ A2)). change (61 =? 61) with true. cbn iota. rewrite N.div_mul by lia. replace (a / 4 * 4 + a mod 4) with a; [reflexivity|]. rewrite (N.div_mod a 4) at 1 by lia. lia.
  - inversion_clear H as [|? ? Ha H1]. inversion_clear H1 as [|? ? Hb _]. cbn [base64 b64_decode].
    assert (A1 : a / 4 < 64) by (apply N.div_lt_upper_bound; lia). assert (B1 : b / 16 < 16) by (apply N.div_lt_upper_bound; lia). pose proof (N.mod_lt a 4 ltac:(lia)) as A2. pose proof (N.mod_lt b 16 ltac:(lia)) as B2.
    assert (X2 : a mod 4 * 16 + b / 16 < 64) by lia. assert (X3 : b mod 16 * 4 < 64) by lia.
    rewrite (proj1 (base64_digit_ok _ A1)), (proj1 (base64_digit_ok _ X2)), (proj2 (base64_digit_ok _ X3)), (proj1 (base64_digit_ok _ X3)). change (61 =? 61) with true. cbn iota.
    replace ((a mod 4 * 16 + b / 16) / 16) with (a mod 4) by (apply (N.div_unique _ 16 _ (b / 16)); lia).
    replace ((a mod 4 * 16 + b / 16) mod 16) with (b / 16) by (apply (N.mod_unique _ 16 (a mod 4)); lia).
    rewrite N.div_mul by lia. replace (a / 4 * 4 + a mod 4) with a by (rewrite (N.div_mod a 4) at 1 by lia; lia). replace (b / 16 * 16 + b mod 16) with b by (rewrite (N.div_mod b 16) at 1 by lia; lia). reflexivity.
  - inversion_clear H as [|? ? Ha H1]. inversion_clear H1 as [|? ? Hb H2]. inversion_clear H2 as [|? ? Hc H3]. cbn [base64 b64_decode].
    assert (A1 : a / 4 < 64) by (apply N.div_lt_upper_bound; lia). assert (B1 : b / 16 < 16) by (apply N.div_lt_upper_bound; lia). assert (C1 : c / 64 < 4) by (apply N.div_lt_upper_bound; lia).
    pose proof (N.mod_lt a 4 ltac:(lia)) as A2. pose proof (N.mod_lt b 16 ltac:(lia)) as B2. pose proof (N.mod_lt c 64 ltac:(lia)) as C2.
    assert (X2 : a mod 4 * 16 + b / 16 < 64) by lia. assert (X3 : b mod 16 * 4 + c / 64 < 64) by lia.
    rewrite (proj1 (base64_digit_ok _ A1)), (proj1 (base64_digit_ok _ X2)), (proj2 (base64_digit_ok _ X3)), (proj1 (base64_digit_ok _ X3)), (proj2 (base64_digit_ok _ C2)), (proj1 (base64_digit_ok _ C2)).
    rewrite (IH n) by (cbn in L; auto; lia). cbn [option_map].
    replace ((a mod 4 * 16 + b / 16) / 16) with (a mod 4) by (apply (N.div_unique _ 16 _ (b / 16)); lia).
    replace ((a mod 4 * 16 + b / 16) mod 16) with (b / 16) by (apply (N.mod_unique _ 16 (a mod 4)); lia).
    replace ((b mod 16 * 4 + c / 64) / 4) with (b mod 16) by (apply (N.div_unique _ 4 _ (c / 64)); lia).
    replace ((b mod 16 * 4 + c / 64) mod 4) with (c / 64) by (apply (N.mod_unique _ 4 (b mod 16)); lia).
    replace (a / 4 * 4 + a mod 4) with a by (rewrite (N.div_mod a 4) at 1 by lia; lia). replace (b / 16 * 16 + b mod 16) with b by (rewrite (N.div_mod b 16) at 1 by lia; lia). replace (c / 64 * 64 + c mod 64) with c by (rewrite (N.div_mod c 64) at 1 by lia; lia). reflexivity.
Qed.

Lemma encoded_digit v : v < 64 -> encoded_char (base64_digit v) = true.
Proof. intros Hv. exact (below 64 (fun v => encoded_char (base64_digit v)) ltac:(vm_compute; reflexivity) v Hv). Qed.

Lemma base64_chars k : forall n, (length n <= k)%nat -> Forall (fun b => b < 256) n -> Forall (fun r => encoded_char r = true) (base64 n).
Proof.
  assert (E : encoded_char 61 = true) by reflexivity.
  induction k as [|k IH]; intros n L H; [destruct n; [constructor | cbn in L; lia]|].
  destruct n as [|a [|b [|c n]]]; [constructor| | |]; inversion_clear H as [|? ? Ha H1]; try (inversion_clear H1 as [|? ? Hb H2]); try (inversion_clear H2 as [|? ? Hc H3]); cbn [base64].
  - assert (A1 : a / 4 < 64) by (apply N.div_lt_upper_bound; lia). pose proof (N.mod_lt a 4 ltac:(lia)) as A2. repeat constructor; auto; apply encoded_digit; lia.
  - assert (A1 : a / 4 < 64) by (apply N.div_lt_upper_bound; lia). assert (B1 : b / 16 < 16) by (apply N.div_lt_upper_bound; lia). pose proof (N.mod_lt a 4 ltac:(lia)) as A2. pose proof (N.mod_lt b 16 ltac:(lia)) as B2.
    repeat constructor; auto; apply encoded_digit; lia.
  - assert (A1 : a / 4 < 64) by (apply N.div_lt_upper_bound; lia). assert (B1 : b / 16 < 16) by (apply N.div_lt_upper_bound; lia). assert (C1 : c / 64 < 4) by (apply N.div_lt_upper_bound; lia).
    pose proof (N.mod_lt a 4 ltac:(lia)) as A2. pose proof (N.mod_lt b 16 ltac:(lia)) as B2. pose proof (N.mod_lt c 64 ltac:(lia)) as C2.
    repeat (constructor; [apply encoded_digit; lia|]). apply IH; [cbn in L; lia | exact H3].
Qed.

Lemma q_chars n : Forall (fun b => b < 256) n -> Forall (fun r => encoded_char r = true) (q_encode n).
Proof.
  intros H. induction H as [|b n Hb H IH]; [constructor|]. unfold q_encode in *. cbn [flat_map]. apply Forall_app. split; [|exact IH].
  pose proof (below 256 (fun v => forallb encoded_char (q_byte v)) ltac:(vm_compute; reflexivity) b Hb) as G. cbn beta in G. apply Forall_forall. now apply forallb_forall.
Qed.

(** a piece of a name as an encoded word; [b]: base64 instead of Q *)
Definition mime_word (charset : list rune) (b : bool) (n : gostring) : list rune :=
  if b then encoded charset (bs "B") (base64 n) else encoded charset (bs "Q") (q_encode n).

Lemma mime_word_ok c b n : nonempty_all charset_char c -> to_lower c = bs "utf-8" -> n <> [] -> Forall (fun b => b < 256) n ->
  encoded_word (mime_word c b n) /\ forall rd, encoded_word_value rd (encode (mime_word c b n)) = n.
Proof.
  intros Hc U N H. assert (B : nonempty_all encoded_char (base64 n)).
  { split; [destruct n as [|? [|? [|]]]; [congruence | discriminate..] | now apply (base64_chars (length n))]. }
  assert (Q : nonempty_all encoded_char (q_encode n)).
  { split; [|now apply q_chars]. destruct n as [|a n]; [congruence|]. unfold q_encode. cbn [flat_map]. unfold q_byte at 1. destruct (q_safe a), (a =? 32); discriminate. }
  assert (E : nonempty_all charset_char (bs "B") /\ nonempty_all charset_char (bs "Q")) by (split; (split; [discriminate | repeat constructor])).
  assert (F : equal_fold (bs "utf-8") c = true) by (unfold equal_fold; rewrite U; reflexivity).
  split.
  - destruct b; [exists c, (bs "B"), (base64 n) | exists c, (bs "Q"), (q_encode n)]; repeat split; auto; try apply Hc; try apply B; try apply Q; try discriminate; repeat constructor.
  - intros rd. unfold encoded_word_value. destruct b; unfold mime_word.
    + rewrite word_decode_encoded by tauto. change (bs "B") with [66]. cbn iota beta. change (decode_content 66 (base64 n)) with (b64_decode (base64 n)). rewrite (b64_round_trip (length n)) by auto. unfold convert. now rewrite F.
    + rewrite word_decode_encoded by tauto. change (bs "Q") with [81]. cbn iota beta. change (decode_content 81 (q_encode n)) with (q_decode (q_encode n)). rewrite q_round_trip by auto. unfold convert. now rewrite F.
Qed.

(** C29: a name cut into pieces, each written as a base64 or Q encoded word, with or without white
    space between them, is put together again. *)
Theorem C29_encoded_name_round_trip : forall e s c (ps : list (list rune * bool * gostring)) g l d g',
  nonempty_all charset_char c -> to_lower c = bs "utf-8" -> ps <> [] ->
  Forall (fun p => ogap (fst (fst p)) /\ snd p <> [] /\ Forall (fun b => b < 256) (snd p)) ps ->
  plain_dots l -> plain_dots d -> ogap g -> ogap g' ->
  decode s = flat_map (fun p => fst (fst p) ++ mime_word c (snd (fst p)) (snd p)) ps ++ g ++ (bs "<" ++ l ++ bs "@" ++ d ++ bs ">") ++ g' ->
  ParseAddressList e s = Ret (Some [mkAddr (concat (map snd ps)) (encode l ++ bs "@" ++ encode d)]) None.
Proof.
  intros e s c ps g l d g' Hc U N H Hl Hd Hg Hg' D. set (ws := map (fun p : list rune * bool * gostring => (fst (fst p), mime_word c (snd (fst p)) (snd p))) ps).
  assert (V : enc_values (reader (wenv_of e)) ws = concat (map snd ps)).
  { subst ws. clear - Hc U H. induction H as [|[[g b] n] ps (Hg & Hn & Hb) H IH]; [reflexivity|]. unfold enc_values in *. cbn [map flat_map fst snd concat] in *. rewrite IH. f_equal. now apply mime_word_ok. }
  rewrite <- V. apply (C27_encoded_words_joined e s ws g l d g'); auto.
  - subst ws. destruct ps; [congruence | discriminate].
  - subst ws. apply Forall_forall. intros x Hx. apply in_map_iff in Hx as (p & <- & Hp). rewrite Forall_forall in H. specialize (H p Hp) as (H1 & H2 & H3). cbn [fst snd]. split; [exact H1 | now apply mime_word_ok].
  - rewrite D. f_equal. subst ws. unfold enc_text. clear. induction ps as [|p ps IH]; [reflexivity|]. cbn [map flat_map fst snd]. now rewrite IH.
Qed.

Example C29_met : ParseAddressList env0 (bs "=?UTF-8?B?w6k=?= =?UTF-8?Q?=E2=82=AC_x?= <a@b>") = Ret (Some [mkAddr ([195; 169; 226; 130; 172; 32] ++ bs "x") (bs "a@b")]) None.
Proof.
  apply (C29_encoded_name_round_trip env0 _ (bs "UTF-8") [([], true, [195; 169]); (bs " ", false, [226; 130; 172; 32] ++ bs "x")] (bs " ") (bs "a") (bs "b") []); auto using space_gap, nogap; try (apply one_dots; reflexivity); try discriminate.
  - split; [discriminate | repeat constructor].
  - constructor; [|constructor; [|constructor]]; (split; [auto using space_gap, nogap|]; split; [discriminate | repeat constructor; lia]).
Qed.

Example C28_met : ParseAddressList env0 (bs "=?koi8-r?Q?abc?= <a@b>") = Ret (Some [mkAddr (bs "=?koi8-r?Q?abc?=") (bs "a@b")]) None /\
  ParseAddressList env0 (bs "=?utf-8?Q?a=zz?= <a@b>") = Ret (Some [mkAddr (bs "=?utf-8?Q?a=zz?=") (bs "a@b")]) None.
Proof.
  split; [apply (C28_undecodable env0 _ [] (bs "koi8-r") (bs "Q") (bs "abc") (bs " ") (bs "a") (bs "b") []) | apply (C28_undecodable env0 _ [] (bs "utf-8") (bs "Q") (bs "a=zz") (bs " ") (bs "a") (bs "b") [])];
    auto using space_gap, nogap; try (apply one_dots; reflexivity); try (split; [discriminate | repeat constructor]).
  - apply no_reader; [reflexivity | cbn; intuition discriminate].
  - apply (bad_q _ _ _ _ (bs "a") (bs "zz")); [now left | reflexivity | cbn; intuition discriminate|]. intros h1 h2 y E. injection E as <- <- _. reflexivity.
Qed.
