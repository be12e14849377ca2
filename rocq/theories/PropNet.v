(** C52: formatting with mail.Address.String and parsing again. *)
From Coq Require Import String List NArith ZArith Bool Arith Lia ZifyN ZifyBool Zify.
From Verif Require Import Lexer Utf8 Strs Mime GoTime Walker Api Utf8Facts DateSpec AddrSpec CharFacts PropApi
  ScanSpec AddrText TextLang TextScan PropText PropAddr PropEnc EncText PropFull NetMail.
Import ListNotations.
Local Open Scope N_scope.

(** * The addresses *)

(** characters that make mail.Address.String quote a local part *)
Definition quoting_char (r : rune) : bool := blank_char r || existsb (N.eqb r) (bs "()[];@\,<>"":").

(** a local part: printable characters, blanks and U+0080 to U+FFFF, not ending in a blank; "=?" only
    if it is quoted anyway *)
Definition local_text (l : list rune) : Prop :=
  l <> [] /\ Forall (fun r => name_char r = true /\ valid_rune r) l /\ blank_char (last l 0) = false /\
  (no_intro l \/ Exists (fun r => quoting_char r = true) l).

(** a domain: atoms separated by periods, or a domain literal; then possibly a colon and a port *)
Definition domain_port (d : list rune) : Prop :=
  domain_m d \/ exists d0 p, d = d0 ++ bs ":" ++ p /\ domain_m d0 /\ nonempty_all digit_char p.

Definition domain_text (d : list rune) : Prop := domain_port d /\ Forall valid_rune d /\ ~ In 64 d.

(** printable ASCII and blanks *)
Definition plain_char (b : byte) : bool := in_range 32 126 b || (b =? 9).

(** Any bytes; but a name of printable ASCII characters must not end in a blank. *)
Definition name_bytes (n : gostring) : Prop :=
  Forall (fun b => b < 256) n /\ (Forall (fun b => plain_char b = true) n -> blank_char (last n 0) = false).

Definition formattable (a : addr) : Prop := exists l d,
  a_address a = encode l ++ bs "@" ++ encode d /\ local_text l /\ domain_text d /\ name_bytes (a_name a).

(** * Characters and bytes *)

Lemma decode1_high b s r s1 : 128 <= b -> decode1 b s = (r, s1) -> 128 <= r.
Proof.
  intros H E. unfold decode1 in E. destruct (N.ltb_spec b 128); [lia|].
  destruct (in_range 194 223 b) eqn:R2; [|destruct (in_range 224 239 b) eqn:R3; [|destruct (in_range 240 244 b) eqn:R4]].
  - destruct s as [|b1 s]; [injection E as <- _; unfold rune_error; lia|]. destruct (cont b1) eqn:C; injection E as <- _; [|unfold rune_error; lia]. brange. lia.
  - destruct s as [|b1 [|b2 s]]; [injection E as <- _; unfold rune_error; lia..|]. destruct (_ && _)%bool eqn:C; injection E as <- _; [|unfold rune_error; lia]. brange. destruct (b =? 224) eqn:B; lia.
  - destruct s as [|b1 [|b2 [|b3 s]]]; [injection E as <- _; unfold rune_error; lia..|]. destruct (_ && _)%bool eqn:C; injection E as <- _; [|unfold rune_error; lia]. brange. destruct (b =? 240) eqn:B; lia.
  - injection E as <- _. unfold rune_error. lia.
Qed.

Lemma decode_low s : Forall ascii (decode s) -> Forall ascii s.
Proof.
  remember (length s) as n eqn:L. revert s L. induction n as [n IH] using lt_wf_ind. intros s L H. destruct s as [|b s]; [constructor|].
  rewrite decode_cons in H. destruct (N.lt_ge_cases b 128) as [Hb|Hb].
  - assert (E : decode1 b s = (b, s)) by (unfold decode1; destruct (N.ltb_spec b 128); [reflexivity | lia]). rewrite E in H.
    constructor; [exact Hb|]. apply (IH (length s)); [cbn in L; lia | reflexivity | now apply Forall_inv_tail in H].
  - destruct (decode1 b s) as [r s1] eqn:E. pose proof (decode1_high _ _ _ _ Hb E). apply Forall_inv in H. unfold ascii in H. lia.
Qed.

Lemma encode1_bytes r b : In b (encode1 r) -> b = r \/ 128 <= b.
Proof.
  unfold encode1. destruct (r <? 128); [intros [<-|[]]; auto|].
  destruct (r <? 2048); [cbn [In]; intros H; right; destruct H as [<-|[<-|[]]]; lia|].
  destruct (_ || _)%bool; [cbn [In]; intros H; right; destruct H as [<-|[<-|[<-|[]]]]; lia|].
  destruct (r <? 65536); cbn [In]; intros H; right; repeat (destruct H as [<-|H]; [lia|]); contradiction.
Qed.

Lemma encode_bytes d b : In b (encode d) -> In b d \/ 128 <= b.
Proof.
  unfold encode. intros H. apply in_flat_map in H as (r & Hr & Hb). apply encode1_bytes in Hb as [->|Hb]; auto.
Qed.

Lemma last_at_split a b : ~ In 64 b -> last_at (a ++ bs "@" ++ b) = Some (a, b).
Proof.
  intros N. assert (Z : last_at b = None).
  { induction b as [|c b IH]; [reflexivity|]. cbn [last_at]. rewrite IH by (intros K; apply N; now right). destruct (N.eqb_spec c 64); [exfalso; apply N; now left | reflexivity]. }
  induction a as [|c a IH].
  - change (last_at (64 :: b) = Some ([], b)). cbn [last_at]. rewrite Z. reflexivity.
  - cbn [app last_at]. rewrite IH. reflexivity.
Qed.

Lemma name_char_cases r : name_char r = true -> (r < 128 /\ name_char r = true) \/ 128 <= r <= 65535.
Proof. intros H. destruct (N.lt_ge_cases r 128); [auto|]. right. unfold name_char in H. unfold in_range in H. lia. Qed.

(** a fact about name characters: checked on ASCII, by hand from 128 on *)
Lemma name_char_ind (P : rune -> bool) : forallb (fun r => implb (name_char r) (P r)) (map N.of_nat (seq 0 128)) = true ->
  (forall r, 128 <= r <= 65535 -> P r = true) -> forall r, name_char r = true -> P r = true.
Proof.
  intros L H r Hr. destruct (name_char_cases r Hr) as [[Hl _]|Hh]; [|now apply H].
  pose proof (below 128 (fun r => implb (name_char r) (P r)) L r Hl) as G. cbn beta in G. now rewrite Hr in G.
Qed.

Lemma not_small r (l : list rune) : 128 <= r -> forallb (fun x => x <? 128) l = true -> existsb (N.eqb r) l = false.
Proof.
  intros H L. destruct (existsb (N.eqb r) l) eqn:E; [|reflexivity]. apply existsb_exists in E as (x & Hx & E). apply N.eqb_eq in E. subst x.
  rewrite forallb_forall in L. specialize (L _ Hx). lia.
Qed.

Lemma vchar_high r : 128 <= r -> is_vchar r = true.
Proof. intros H. unfold is_vchar, is_multibyte. destruct (N.leb_spec 128 r); [apply orb_true_r | lia]. Qed.

(** * quoteString *)

Lemma quote_step r : name_char r = true ->
  (if is_qtext r || is_wsp r then [r] else if is_vchar r then [92; r] else []) = escape special_only [r].
Proof.
  intros H. unfold escape. cbn [flat_map]. rewrite app_nil_r.
  assert (Q : Bool.eqb (is_qtext r || is_wsp r) (negb (existsb (N.eqb r) special_only)) && implb (existsb (N.eqb r) special_only) (is_vchar r) = true).
  { revert H. revert r. apply name_char_ind; [vm_compute; reflexivity|]. intros r Hr. unfold is_qtext. rewrite (not_small r special_only) by (auto; lia).
    cbn [special_only existsb] in *. destruct (N.eqb_spec r 92); [lia|]. destruct (N.eqb_spec r 34); [lia|]. cbn [orb]. rewrite vchar_high by lia. reflexivity. }
  apply andb_prop in Q as [Q1 Q2]. apply eqb_prop in Q1. rewrite Q1. destruct (existsb (N.eqb r) special_only); cbn [negb implb] in *; [now rewrite Q2 | reflexivity].
Qed.

Lemma quote_string_text t : Forall (fun r => name_char r = true /\ valid_rune r) t ->
  decode (quote_string (encode t)) = [34] ++ escape special_only t ++ [34].
Proof.
  intros H. assert (V : Forall valid_rune t) by (eapply Forall_impl; [|exact H]; cbn; tauto).
  assert (E : quote_string (encode t) = encode ([34] ++ escape special_only t ++ [34])).
  { unfold quote_string. rewrite (decode_encode_all t V). rewrite !encode_app. f_equal. f_equal. clear V.
    induction H as [|r t [Hr _] H IH]; [reflexivity|]. unfold escape in *. cbn [flat_map]. rewrite encode_app. f_equal; [|exact IH].
    pose proof (quote_step r Hr) as Q. unfold escape in Q. cbn [flat_map] in Q. rewrite app_nil_r in Q. rewrite <- Q.
    destruct (is_qtext r || is_wsp r); [unfold encode; cbn [flat_map]; now rewrite app_nil_r|]. destruct (is_vchar r); [|reflexivity].
    unfold encode. cbn [flat_map]. rewrite app_nil_r. reflexivity. }
  rewrite E. apply decode_encode_all. apply Forall_app. split; [constructor; [left; lia | constructor]|]. apply Forall_app. split; [|constructor; [left; lia | constructor]].
  clear E. induction V as [|r t Hr V IH]; [constructor|]. apply Forall_inv_tail in H. specialize (IH H). unfold escape in *. cbn [flat_map]. apply Forall_app. split; [|exact IH].
  destruct (existsb (N.eqb r) special_only); [constructor; [left; lia|] |]; (constructor; [exact Hr | constructor]).
Qed.

Lemma quote_quoted t : Forall (fun r => name_char r = true /\ valid_rune r) t -> t <> [] -> blank_char (last t 0) = false ->
  quoted ([34] ++ escape special_only t ++ [34]) t.
Proof.
  intros H N L. exists (escape special_only t). split; [reflexivity|].
  assert (F : Forall (fun r => name_char r = true) t) by (eapply Forall_impl; [|exact H]; cbn; tauto).
  pose proof (plain_quoted [] (Forall_nil _) t [] F (Forall_nil _) N L) as G. cbn [app] in G. rewrite app_nil_r in G. exact G.
Qed.

(** * Local parts *)

Lemma atext_name r : name_char r = true -> is_atext r = true -> atext_char r = true.
Proof.
  intros H A. pose proof (name_char_ind (fun r => implb (is_atext r) (atext_char r))) as G. cbn beta in G.
  specialize (G ltac:(vm_compute; reflexivity)). assert (implb (is_atext r) (atext_char r) = true) as X.
  { apply G; [|exact H]. intros k Hk. assert (E : in_range 128 65535 k = true) by (apply in_range_spec; lia). unfold atext_char. rewrite E. rewrite !orb_true_r. destruct (is_atext k); reflexivity. }
  rewrite A in X. exact X.
Qed.

Lemma atext_not_dot r : is_atext r = true -> r <> 46.
Proof. intros H ->. discriminate H. Qed.

Lemma unquoted_dots k : forall l a p, (length l <= k)%nat -> atom a -> p <> 46 -> Forall (fun r => name_char r = true) l -> quote_local (Some p) l = false ->
  exists m, m <> [] /\ Forall atom m /\ a ++ l = join (bs ".") m.
Proof.
  induction k as [|k IH]; intros l a p L A P F Q.
  - destruct l; [|cbn in L; lia]. exists [a]. split; [discriminate|]. split; [now constructor|]. now rewrite app_nil_r.
  - destruct l as [|r l]; [exists [a]; split; [discriminate|]; split; [now constructor|]; now rewrite app_nil_r|].
    cbn [quote_local] in Q. destruct (is_atext r) eqn:R.
    + destruct (IH l (a ++ [r]) r) as (m & M1 & M2 & M3); auto.
      * cbn in L. lia.
      * split; [destruct a; discriminate|]. apply Forall_app. split; [apply A|]. constructor; [|constructor]. apply atext_name; [now apply Forall_inv in F | exact R].
      * now apply atext_not_dot.
      * now apply Forall_inv_tail in F.
      * exists m. split; [exact M1|]. split; [exact M2|]. rewrite <- app_assoc in M3. exact M3.
    + destruct (N.eqb_spec r 46) as [->|]; [|discriminate Q]. destruct (N.eqb_spec p 46); [congruence|]. cbn [negb andb] in Q. destruct l as [|r2 l]; [discriminate Q|].
      cbn [quote_local] in Q. destruct (is_atext r2) eqn:R2.
      * apply Forall_inv_tail in F. destruct (IH l [r2] r2) as (m & M1 & M2 & M3); auto.
        { cbn in L. lia. }
        { split; [discriminate|]. constructor; [|constructor]. apply atext_name; [now apply Forall_inv in F | exact R2]. }
        { now apply atext_not_dot. }
        { now apply Forall_inv_tail in F. }
        exists (a :: m). split; [discriminate|]. split; [now constructor|]. destruct m as [|m1 m]; [congruence|].
        change (join (bs ".") (a :: m1 :: m)) with (a ++ bs "." ++ join (bs ".") (m1 :: m)). rewrite <- M3. reflexivity.
      * rewrite N.eqb_refl in Q. change (46 =? 46) with true in Q. cbn [negb andb] in Q. rewrite andb_false_r in Q. discriminate Q.
Qed.

Lemma quote_local_dot l : l <> [] -> Forall (fun r => name_char r = true) l -> quote_local None l = false -> dot_atom l.
Proof.
  intros N F Q. destruct l as [|r l]; [congruence|]. cbn [quote_local] in Q. destruct (is_atext r) eqn:R.
  - destruct (unquoted_dots (length l) l [r] r) as (m & M1 & M2 & M3); auto.
    + split; [discriminate|]. constructor; [|constructor]. apply atext_name; [now apply Forall_inv in F | exact R].
    + now apply atext_not_dot.
    + now apply Forall_inv_tail in F.
    + exists m. split; [exact M1|]. split; [exact M2|]. left. exact M3.
  - rewrite andb_false_r in Q. discriminate Q.
Qed.

Lemma quoting_quotes l : Exists (fun r => quoting_char r = true) l -> forall p, quote_local p l = true.
Proof.
  intros H. induction H as [r l Hr|r l H IH]; intros p.
  - cbn [quote_local]. assert (A : is_atext r = false /\ (r =? 46) = false).
    { unfold quoting_char in Hr. apply orb_prop in Hr as [Hr|Hr].
      - unfold blank_char in Hr. assert (r = 32 \/ r = 9) as [-> | ->] by lia; split; reflexivity.
      - apply existsb_exists in Hr as (x & Hx & E). apply N.eqb_eq in E. subst x.
        cbn in Hx. repeat (destruct Hx as [<-|Hx]; [split; reflexivity|]). contradiction. }
    destruct A as [-> ->]. reflexivity.
  - cbn [quote_local]. rewrite IH. destruct (is_atext r); [reflexivity|]. now destruct (_ && _)%bool.
Qed.

(** the local part as String writes it: bytes and characters *)
Definition written_bytes (l : gostring) : gostring := if quote_local None (decode l) then quote_string l else l.
Definition written_local (l : list rune) : list rune := if quote_local None l then [34] ++ escape special_only l ++ [34] else l.

Lemma written_local_ok l : local_text l -> tight_local (written_local l) (encode l) /\
  decode (written_bytes (encode l)) = written_local l.
Proof.
  intros (N & F & L & I). assert (V : Forall valid_rune l) by (eapply Forall_impl; [|exact F]; cbn; tauto).
  assert (F1 : Forall (fun r => name_char r = true) l) by (eapply Forall_impl; [|exact F]; cbn; tauto).
  unfold written_bytes. rewrite (decode_encode_all l V). unfold written_local. destruct (quote_local None l) eqn:Q.
  - split; [apply tl_quoted; now apply quote_quoted | now apply quote_string_text].
  - split; [|now apply decode_encode_all]. apply tl_dot; [now apply quote_local_dot|]. destruct I as [I|I]; [exact I|]. rewrite (quoting_quotes l I) in Q. discriminate Q.
Qed.

(** * Encoded words *)

Lemma b64_digit_eq v : b64_digit v = base64_digit v.
Proof. unfold b64_digit, base64_digit. destruct (N.ltb_spec v 26); [reflexivity|]. destruct (N.ltb_spec v 52); [lia|]. destruct (N.ltb_spec v 62); [lia | reflexivity]. Qed.

Lemma b64_encode_base64 n : b64_encode n = base64 n.
Proof.
  remember (length n) as k eqn:L. revert n L. induction k as [k IH] using lt_wf_ind. intros n L. destruct n as [|a [|b [|c n]]]; cbn [b64_encode base64]; rewrite ?b64_digit_eq; try reflexivity.
  rewrite (IH (length n)); [reflexivity | cbn in L; lia | reflexivity].
Qed.

Lemma b_word_ok p : p <> [] -> Forall (fun b => b < 256) p ->
  full_encoded_word (open_word (bs "b") (b64_encode p)) /\ forall rd, encoded_word_value rd (encode (open_word (bs "b") (b64_encode p))) = p.
Proof.
  intros N H. rewrite b64_encode_base64. assert (B : nonempty_all encoded_char (base64 p)).
  { split; [destruct p as [|? [|? [|]]]; [congruence | discriminate..] | now apply (base64_chars (length p))]. }
  assert (X : word_part (bs "utf-8") /\ word_part (bs "b")).
  { split; (split; [discriminate|]; split; repeat constructor; try discriminate). }
  split.
  - exists (bs "utf-8"), (bs "b"), (base64 p). split; [reflexivity|]. split; [split; [discriminate | repeat constructor]|]. split; [split; [discriminate | repeat constructor]|].
    split; [apply B|]. eapply Forall_impl; [|apply B]. intros r Hr. cbn beta in *. unfold encoded_char in Hr. apply andb_prop in Hr as [Hr Q]. apply andb_prop in Hr as [Hr L].
    unfold enc_char. rewrite Q. rewrite andb_true_r. pose proof (below 128 (fun r => implb (atext_char r) (in_range 33 126 r)) ltac:(vm_compute; reflexivity) r ltac:(lia)) as G. cbn beta in G. now rewrite Hr in G.
  - intros rd. unfold encoded_word_value. change (open_word (bs "b") (base64 p)) with (encoded (bs "utf-8") (bs "b") (base64 p)). rewrite word_decode_parts; [|apply X..|].
    + change (bs "b") with [98]. cbn iota beta. change (decode_content 98 (base64 p)) with (b64_decode (base64 p)). rewrite (b64_round_trip (length p)) by auto. reflexivity.
    + exact (enc_ascii _ B).
Qed.

Definition q_write1 (b : byte) : gostring := if b =? 32 then [95] else if q_plain b then [b] else [61; upper_hex (b / 16); upper_hex (b mod 16)].

Lemma q_write1_ok b x : b < 256 -> q_decode (q_write1 b ++ x) = option_map (cons b) (q_decode x) /\ forallb enc_char (q_write1 b) = true.
Proof.
  intros Hb. split; [|exact (below 256 (fun v => forallb enc_char (q_write1 v)) ltac:(vm_compute; reflexivity) b Hb)].
  unfold q_write1. destruct (N.eqb_spec b 32) as [->|N32]; [reflexivity|]. destruct (q_plain b) eqn:S.
  - cbn [app q_decode]. unfold q_plain in S. apply andb_prop in S as [R S]. rewrite negb_true_iff in S. apply orb_false_iff in S as [S S3]. apply orb_false_iff in S as [S1 S2]. rewrite S1, S3, R. reflexivity.
  - cbn [app q_decode].
    assert (H1 : b / 16 < 16) by (apply N.div_lt_upper_bound; lia). assert (H2 : b mod 16 < 16) by (apply N.mod_lt; lia).
    assert (X : forall v, v < 16 -> from_hex (upper_hex v) = Some v).
    { intros v Hv. pose proof (below 16 (fun v => match from_hex (upper_hex v) with Some w => w =? v | None => false end) ltac:(vm_compute; reflexivity) v Hv) as G. cbn beta in G.
      destruct (from_hex (upper_hex v)); [|discriminate]. apply N.eqb_eq in G. now subst. }
    change (61 =? 95) with false. change (61 =? 61) with true. cbn iota. rewrite (X _ H1), (X _ H2). replace (b / 16 * 16 + b mod 16) with b; [reflexivity|]. rewrite (N.div_mod b 16) at 1 by lia. lia.
Qed.

Lemma q_write_ok p : Forall (fun b => b < 256) p -> q_decode (q_write p) = Some p /\ Forall (fun r => enc_char r = true) (q_write p).
Proof.
  intros H. induction H as [|b p Hb H [IH1 IH2]]; [split; [reflexivity | constructor]|].
  change (q_write (b :: p)) with (q_write1 b ++ q_write p). destruct (q_write1_ok b (q_write p) Hb) as [E C]. rewrite E, IH1. split; [reflexivity|].
  apply Forall_app. split; [apply Forall_forall; now apply forallb_forall | exact IH2].
Qed.

Lemma enc_char_part t : t <> [] -> Forall (fun r => enc_char r = true) t -> word_part t.
Proof.
  intros N H. split; [exact N|]. split; eapply Forall_impl; try exact H; intros r Hr; cbn beta in *; unfold enc_char in Hr; apply andb_prop in Hr as [R Q].
  - apply in_range_spec in R. unfold ascii. lia.
  - intros ->. discriminate Q.
Qed.

Lemma q_word_ok p : p <> [] -> Forall (fun b => b < 256) p ->
  full_encoded_word (open_word (bs "q") (q_write p)) /\ forall rd, encoded_word_value rd (encode (open_word (bs "q") (q_write p))) = p.
Proof.
  intros N H. destruct (q_write_ok p H) as [D C]. assert (Nw : q_write p <> []) by (intros E; rewrite E in D; cbn in D; injection D as <-; now apply N).
  split.
  - exists (bs "utf-8"), (bs "q"), (q_write p). split; [reflexivity|]. split; [split; [discriminate | repeat constructor]|]. split; [split; [discriminate | repeat constructor]|]. split; assumption.
  - intros rd. unfold encoded_word_value. change (open_word (bs "q") (q_write p)) with (encoded (bs "utf-8") (bs "q") (q_write p)). rewrite word_decode_parts.
    + change (bs "q") with [113]. cbn iota beta. change (decode_content 113 (q_write p)) with (q_decode (q_write p)). rewrite D. reflexivity.
    + split; [discriminate|]; split; repeat constructor; try discriminate.
    + split; [discriminate|]; split; repeat constructor; try discriminate.
    + now apply enc_char_part.
Qed.

(** ** The pieces of a name *)

Lemma chars_ok n : forall s, (length s <= n)%nat -> concat (chars_fuel n s) = s /\ Forall (fun c => c <> [] /\ (length c <= 4)%nat) (chars_fuel n s).
Proof.
  induction n as [|n IH]; intros s L; [destruct s; [split; [reflexivity | constructor] | cbn in L; lia]|].
  destruct s as [|b s]; [split; [reflexivity | constructor]|]. cbn [chars_fuel]. destruct (decode1 b s) as [r s1] eqn:E.
  destruct (decode1_suffix _ _ _ _ E) as (p & -> & Lp). destruct (IH s1) as [I1 I2]; [len|].
  assert (X : firstn (length (b :: p ++ s1) - length s1) (b :: p ++ s1) = b :: p).
  { replace (length (b :: p ++ s1) - length s1)%nat with (length (b :: p)) by len. change (b :: p ++ s1) with ((b :: p) ++ s1). rewrite firstn_app, firstn_all, Nat.sub_diag. cbn [firstn]. apply app_nil_r. }
  rewrite X. split; [cbn [concat]; rewrite I1; reflexivity|]. constructor; [split; [discriminate | cbn; lia] | exact I2].
Qed.

Lemma b_split_ok l : Forall (fun c => c <> [] /\ (length c <= 4)%nat) l -> forall cur, concat (b_split cur l) = cur ++ concat l /\ b_split cur l <> [] /\ (cur <> [] \/ l <> [] -> Forall (fun p => p <> []) (b_split cur l)).
Proof.
  intros H. induction H as [|c l [Nc Lc] H IH]; intros cur.
  - cbn. split; [reflexivity|]. split; [discriminate|]. intros [K|K]; [now repeat constructor | congruence].
  - cbn [b_split]. destruct (Nat.leb_spec (length cur + length c) 45) as [K|K].
    + destruct (IH (cur ++ c)) as (I1 & I2 & I3). split; [rewrite I1; cbn [concat]; now rewrite <- app_assoc|]. split; [exact I2|]. intros _. apply I3. left. destruct cur; [exact Nc | discriminate].
    + destruct (IH c) as (I1 & I2 & I3). split; [cbn [concat]; now rewrite I1|]. split; [discriminate|]. intros _. constructor; [destruct cur; [cbn in K; lia | discriminate] | apply I3; now left].
Qed.

Lemma b_pieces_ok s : s <> [] -> concat (b_pieces s) = s /\ b_pieces s <> [] /\ Forall (fun p => p <> []) (b_pieces s).
Proof.
  intros N. unfold b_pieces. destruct (Nat.leb _ 63); [cbn; rewrite app_nil_r; repeat split; [discriminate | now repeat constructor]|].
  destruct (chars_ok (length s) s (le_n _)) as [C1 C2]. destruct (b_split_ok (chars s) C2 []) as (B1 & B2 & B3). unfold chars in *. rewrite C1 in B1. split; [exact B1|]. split; [exact B2|]. apply B3. right.
  intros K. rewrite K in C1. cbn in C1. congruence.
Qed.

Lemma q_cost_pos c : c <> [] -> (length c <= 4)%nat -> (1 <= q_cost c <= 12)%nat.
Proof. intros N L. unfold q_cost. destruct c as [|b [|b2 c]]; [congruence | destruct (q_plain b); lia | cbn [length] in *; lia]. Qed.

Lemma q_split_ok l : Forall (fun c => c <> [] /\ (length c <= 4)%nat) l -> forall n cur, (cur = [] -> n = 0)%nat ->
  concat (q_split n cur l) = cur ++ concat l /\ q_split n cur l <> [] /\ (cur <> [] \/ l <> [] -> Forall (fun p => p <> []) (q_split n cur l)).
Proof.
  intros H. induction H as [|c l [Nc Lc] H IH]; intros n cur Z.
  - cbn. split; [reflexivity|]. split; [discriminate|]. intros [K|K]; [now repeat constructor | congruence].
  - pose proof (q_cost_pos c Nc Lc) as P. cbn [q_split]. destruct (Nat.ltb_spec 63 (n + q_cost c)) as [K|K].
    + destruct (IH (q_cost c) c) as (I1 & I2 & I3); [congruence|]. split; [cbn [concat]; now rewrite I1|]. split; [discriminate|]. intros _. constructor; [intros ->; rewrite Z in K by reflexivity; lia | apply I3; now left].
    + destruct (IH (n + q_cost c)%nat (cur ++ c)) as (I1 & I2 & I3); [intros X; apply app_eq_nil in X as [_ X]; congruence|]. split; [rewrite I1; cbn [concat]; now rewrite <- app_assoc|]. split; [exact I2|]. intros _. apply I3. left. destruct cur; [exact Nc | discriminate].
Qed.

Lemma q_pieces_ok s : s <> [] -> concat (q_split 0 [] (chars s)) = s /\ q_split 0 [] (chars s) <> [] /\ Forall (fun p => p <> []) (q_split 0 [] (chars s)).
Proof.
  intros N. destruct (chars_ok (length s) s (le_n _)) as [C1 C2]. destruct (q_split_ok (chars s) C2 0 [] (fun _ => eq_refl)) as (B1 & B2 & B3). unfold chars in *. rewrite C1 in B1. split; [exact B1|]. split; [exact B2|]. apply B3. right.
  intros K. rewrite K in C1. cbn in C1. congruence.
Qed.

Lemma concat_bytes (l : list gostring) : Forall (fun b => b < 256) (concat l) -> Forall (Forall (fun b => b < 256)) l.
Proof. induction l as [|x l IH]; intros H; [constructor|]. cbn [concat] in H. apply Forall_app in H as [H1 H2]. constructor; auto. Qed.

(** ** Names made of encoded words *)

(** words separated by spaces, after a gap *)
Fixpoint word_items (g : list rune) (l : list gostring) : list (list rune * item) :=
  match l with [] => [] | w :: l' => (g, IEnc [w]) :: word_items (bs " ") l' end.

Lemma word_items_ok l : Forall full_encoded_word l -> forall g b, ogap g -> (b = true -> g <> []) -> full_items b (word_items g l).
Proof.
  intros H. induction H as [|w l Hw H IH]; intros g b Hg Hb; [exact I|]. cbn [word_items full_items full_item is_run]. split; [exact Hg|].
  split; [split; [discriminate | now constructor]|]. split; [intros; now apply Hb|]. apply IH; [apply space_gap1 | discriminate].
Qed.

Lemma word_items_text l g : l <> [] -> name_text (word_items g l) = g ++ join (bs " ") l.
Proof.
  revert g. induction l as [|w l IH]; intros g N; [congruence|]. cbn [word_items]. unfold name_text in *. cbn [flat_map]. destruct l as [|w2 l].
  - cbn [word_items flat_map item_text concat join]. now rewrite !app_nil_r.
  - rewrite IH by discriminate. cbn [item_text concat]. rewrite app_nil_r. rewrite <- app_assoc. reflexivity.
Qed.

Lemma word_items_value rd l vs : Forall2 (fun w v => encoded_word_value rd (encode w) = v) l vs -> forall g n p, (p = None \/ exists x, p = Some (IEnc x)) ->
  name_from rd n p (word_items g l) = n ++ concat vs.
Proof.
  intros H. induction H as [|w v l vs Hw H IH]; intros g n p Hp; [cbn; now rewrite app_nil_r|]. cbn [word_items name_from].
  destruct Hp as [->|[x ->]]; cbn [joins]; (etransitivity; [apply IH; eauto|]); cbn [item_value flat_map concat app]; rewrite Hw, app_nil_r; now rewrite <- app_assoc.
Qed.

Lemma full_word_ascii w : full_encoded_word w -> Forall ascii w.
Proof.
  intros (c & e & t & -> & [_ C] & [_ E] & [_ T]).
  assert (K : forall x, Forall (fun r => enc_token_char r = true) x -> Forall ascii x).
  { intros x H. eapply Forall_impl; [|exact H]. intros r Hr. cbn beta in Hr. unfold enc_token_char in Hr. apply orb_prop in Hr as [Hr|Hr].
    - assert (Q : nonempty_all charset_char [r]) by (split; [discriminate | now repeat constructor]). apply charset_ascii in Q as (_ & Q & _). now apply Forall_inv in Q.
    - unfold ascii. lia. }
  repeat (apply Forall_app; split); auto; try (repeat constructor; unfold ascii; lia).
  destruct t; [constructor|]. apply enc_char_part; [discriminate | exact T].
Qed.

Lemma join_ascii sep l : Forall ascii sep -> Forall (Forall ascii) l -> Forall ascii (join sep l).
Proof.
  intros S H. induction H as [|x l Hx H IH]; [constructor|]. destruct l as [|y l]; [exact Hx|].
  change (join sep (x :: y :: l)) with (x ++ sep ++ join sep (y :: l)). repeat (apply Forall_app; split); auto.
Qed.

(** a name as String writes it: items with the right text and the right meaning *)
Definition writes (n w : gostring) : Prop := Forall ascii w /\ forall g, ogap g -> exists l, full_name l /\ name_text l = g ++ w /\ forall rd, name_value rd l = n.

Lemma words_write n (enc : gostring -> gostring) ps : n <> [] -> Forall (fun b => b < 256) n -> concat ps = n -> ps <> [] -> Forall (fun p => p <> []) ps ->
  (forall p, p <> [] -> Forall (fun b => b < 256) p -> full_encoded_word (enc p) /\ forall rd, encoded_word_value rd (encode (enc p)) = p) ->
  writes n (join (bs " ") (map enc ps)).
Proof.
  intros Nn B C Np Fp Henc. rewrite <- C in B. apply concat_bytes in B.
  assert (W : Forall full_encoded_word (map enc ps) /\ forall rd, Forall2 (fun w v => encoded_word_value rd (encode w) = v) (map enc ps) ps).
  { clear - B Fp Henc. induction Fp as [|p ps Hp Fp IH]; [split; [constructor | intros; constructor]|]. inversion_clear B as [|? ? B1 B2]. destruct (IH B2) as [I1 I2]. destruct (Henc p Hp B1) as [E1 E2].
    split; [now constructor|]. intros rd. constructor; [apply E2 | apply I2]. }
  destruct W as [W1 W2]. split.
  - apply join_ascii; [repeat constructor; unfold ascii; lia|]. eapply Forall_impl; [|exact W1]. apply full_word_ascii.
  - intros g Hg. exists (word_items g (map enc ps)). split; [split; [destruct ps; [congruence | discriminate] | apply word_items_ok; auto; discriminate]|].
    split; [apply word_items_text; destruct ps; [congruence | discriminate]|]. intros rd. unfold name_value. rewrite (word_items_value rd _ ps (W2 rd)) by auto. exact C.
Qed.

Lemma plain_name n : forallb (fun r => (is_vchar r || is_wsp r) && negb (is_multibyte r)) (decode n) = true -> Forall (fun b => plain_char b = true) n /\ Forall ascii n.
Proof.
  intros H. rewrite forallb_forall in H. assert (A : Forall ascii (decode n)).
  { apply Forall_forall. intros r Hr. specialize (H r Hr). apply andb_prop in H as [_ H]. unfold is_multibyte in H. unfold ascii. lia. }
  apply decode_low in A as A'. split; [|exact A']. rewrite (decode_all_ascii n A') in H. apply Forall_forall. intros r Hr. specialize (H r Hr). apply andb_prop in H as [H1 H2].
  unfold is_vchar, is_wsp, is_multibyte in *. unfold plain_char. unfold in_range in *. lia.
Qed.

Lemma odd_name n : forallb (fun r => (is_vchar r || is_wsp r) && negb (is_multibyte r)) (decode n) = false -> needs_encoding n = true.
Proof.
  intros H. unfold needs_encoding. apply existsb_exists. induction (decode n) as [|r l IH]; [discriminate H|]. cbn [forallb] in H. apply andb_false_iff in H as [H|H].
  - exists r. split; [now left|]. unfold is_vchar, is_wsp, is_multibyte, in_range in H. lia.
  - destruct (IH H) as (x & Hx & E). exists x. split; [now right | exact E].
Qed.

Definition written_name (n : gostring) : gostring :=
  if forallb (fun r => (is_vchar r || is_wsp r) && negb (is_multibyte r)) (decode n) then quote_string n
  else if existsb (fun b => existsb (N.eqb b) (bs """#$%&'(),.:;<>@[]^`{|}~")) n then b_word n else q_word n.

Lemma written_name_ok n : n <> [] -> name_bytes n -> writes n (written_name n).
Proof.
  intros N [B L]. unfold written_name. destruct (forallb _ (decode n)) eqn:P.
  - destruct (plain_name n P) as [Pn An]. specialize (L Pn).
    assert (F : Forall (fun r => name_char r = true /\ valid_rune r) n).
    { apply Forall_forall. intros r Hr. rewrite Forall_forall in Pn, An. specialize (Pn r Hr). specialize (An r Hr). unfold ascii in An. split; [|left; lia]. unfold name_char. unfold plain_char in Pn. now rewrite Pn. }
    pose proof (quote_string_text n F) as T. rewrite (encode_ascii n An) in T.
    assert (A2 : Forall ascii ([34] ++ escape special_only n ++ [34])).
    { apply Forall_app. split; [repeat constructor; unfold ascii; lia|]. apply Forall_app. split; [|repeat constructor; unfold ascii; lia].
      clear - An. induction An as [|r n Hr An IH]; [constructor|]. unfold escape in *. cbn [flat_map]. apply Forall_app. split; [|exact IH]. destruct (existsb (N.eqb r) special_only); repeat constructor; auto. }
    assert (A3 : Forall ascii (quote_string n)) by (apply decode_low; rewrite T; exact A2).
    split; [exact A3|]. intros g Hg. rewrite (decode_all_ascii _ A3) in T. exists [(g, IQuoted ([34] ++ escape special_only n ++ [34]) n)].
    split; [split; [discriminate|]; cbn [full_items full_item is_run]; split; [exact Hg|]; split; [now apply quote_quoted|]; split; [discriminate | exact I]|].
    split; [unfold name_text; cbn [flat_map item_text]; rewrite app_nil_r, T; reflexivity|].
    intros rd. unfold name_value. cbn [name_from item_value joins app]. now apply encode_ascii.
  - apply odd_name in P. match goal with |- context [if ?c then _ else _] => destruct c end.
    + unfold b_word. rewrite P. destruct (b_pieces_ok n N) as (C & Np & Fp). apply (words_write n (fun p => open_word (bs "b") (b64_encode p))); auto using b_word_ok.
    + unfold q_word. rewrite P. destruct (q_pieces_ok n N) as (C & Np & Fp). apply (words_write n (fun p => open_word (bs "q") (q_write p))); auto using q_word_ok.
Qed.

(** * Whole addresses *)

Lemma decode_ascii_sep a sep b : Forall ascii sep -> sep <> [] -> decode (a ++ sep ++ b) = decode a ++ sep ++ decode b.
Proof.
  intros H N. destruct sep as [|c sep]; [congruence|]. inversion_clear H as [|? ? Hc H']. cbn [app]. rewrite decode_split by exact Hc. rewrite decode_app_ascii by exact H'. reflexivity.
Qed.

Lemma address_string_eq n A l d : last_at A = Some (l, d) -> address_string (mkAddr n A) =
  (match n with [] => [] | _ => written_name n ++ bs " " end) ++ bs "<" ++ written_bytes l ++ bs "@" ++ d ++ bs ">".
Proof.
  intros E. unfold address_string. cbn [a_name a_address]. rewrite E. destruct n as [|b n]; [reflexivity|]. unfold written_name.
  destruct (forallb _ _); [now rewrite <- app_assoc|]. destruct (existsb _ _); now rewrite <- app_assoc.
Qed.

Lemma string_mailbox rd a g : formattable a -> ogap g -> full_mailbox rd (g ++ decode (address_string a)) a.
Proof.
  intros (l & d & Ea & Hl & (Hd & Vd & Nd) & Hn) Hg. destruct a as [n s]. cbn [a_name a_address] in *. subst s.
  rewrite (address_string_eq n _ (encode l) (encode d)).
  2:{ apply last_at_split. intros K. apply encode_bytes in K as [K|K]; [exact (Nd K) | lia]. }
  destruct (written_local_ok l Hl) as [T D]. set (w := written_bytes (encode l)) in *.
  assert (S : tight_address (written_local l ++ bs "@" ++ d) (encode l ++ bs "@" ++ encode d)).
  { destruct Hd as [Hd|(d0 & p & -> & Hd & Hp)]; [left; now constructor | right; now constructor]. }
  assert (G : decode (bs "<" ++ w ++ bs "@" ++ encode d ++ bs ">") = bs "<" ++ (written_local l ++ bs "@" ++ d) ++ bs ">" ++ []).
  { rewrite decode_app_ascii by (repeat constructor; unfold ascii; lia). f_equal. rewrite decode_ascii_sep by (try discriminate; repeat constructor; unfold ascii; lia). rewrite D. rewrite (decode_encode d (bs ">") Vd). rewrite <- !app_assoc. reflexivity. }
  destruct n as [|b n].
  - change ([] ++ ?x) with x. rewrite G. change (mkAddr [] (encode l ++ bs "@" ++ encode d)) with (address_of [] (encode l ++ bs "@" ++ encode d)). apply fm_angle; [exact Hg | exact S | now left].
  - destruct (written_name_ok (b :: n) ltac:(discriminate) Hn) as [A W]. destruct (W g Hg) as (L & L1 & L2 & L3). rewrite <- app_assoc.
    rewrite decode_app_ascii by exact A. rewrite decode_app_ascii by (repeat constructor; unfold ascii; lia). rewrite G. assert (X : forall z, g ++ written_name (b :: n) ++ z = name_text L ++ z) by (intros z; rewrite L2; apply app_assoc). rewrite X.
    rewrite <- (L3 rd). apply (fm_named rd L (bs " ")); [exact L1 | apply space_gap1 | exact S | now left].
Qed.

Lemma string_list rd l : l <> [] -> Forall formattable l -> forall g, ogap g -> full_list rd (g ++ decode (join (bs ", ") (map address_string l))) l.
Proof.
  intros N H. induction H as [|a l Ha H IH]; [congruence|]. intros g Hg. destruct l as [|b l].
  - cbn [map join]. apply fl_one. now apply string_mailbox.
  - change (join (bs ", ") (map address_string (a :: b :: l))) with (address_string a ++ bs ", " ++ join (bs ", ") (map address_string (b :: l))).
    rewrite decode_ascii_sep by (try discriminate; repeat constructor; unfold ascii; lia). rewrite app_assoc.
    change (bs ", ") with ([44] ++ bs " ") at 1. rewrite <- (app_assoc [44]). apply fl_more; [now apply string_mailbox | now left|]. apply IH; [discriminate | apply space_gap1].
Qed.

(** C52: addresses formatted by mail.Address.String and joined with commas parse to themselves. *)
Theorem C52_format_parse_round_trip : forall (e : env) (l : list addr), l <> [] -> Forall formattable l ->
  ParseAddressList e (join (bs ", ") (map address_string l)) = Ret (Some l) None.
Proof.
  intros e l N H. apply C51_encoded_words_any_text. exact (string_list (reader (wenv_of e)) l N H [] (or_introl eq_refl)).
Qed.

(** The hypotheses are met: a name with a comma and quotes, one beyond U+FFFF, one that is not UTF-8, a
    local part that must be quoted, a domain literal with a port. *)
Definition some_addresses : list addr :=
  [mkAddr (bs "Smith, ""J"" \ Jr.") (bs "a.b@example.com"); mkAddr ([240; 159; 152; 128] ++ bs " \ x") (bs "a, (b)@[::1]:25");
   mkAddr [255; 46; 32] ([195; 169] ++ bs "@c.d."); mkAddr [] (bs ".@e")].

Lemma local_check l : negb (eqb_str l []) && forallb name_char l && forallb (fun r => r <? 55296) l && negb (blank_char (last l 0)) && forallb (fun r => negb (r =? 61)) l = true -> local_text l.
Proof.
  intros H. repeat (apply andb_prop in H as [H ?]). split; [destruct l; [discriminate H | discriminate]|]. rewrite forallb_forall in *. split.
  - apply Forall_forall. intros r Hr. split; [auto|]. left. apply N.ltb_lt. auto.
  - split; [now apply negb_true_iff|]. left. apply no_intro1. apply forallb_forall. auto.
Qed.

Lemma domain_check l : Forall (fun a => negb (eqb_str a []) && forallb atext_char a = true) l -> l <> [] -> forall t, t = [] \/ t = bs "." ->
  forallb (fun r => (r <? 128) && negb ((r =? 61) || (r =? 64))) (join (bs ".") l ++ t) = true -> domain_text (join (bs ".") l ++ t).
Proof.
  intros H N t T B. split; [|split].
  - left. apply dm_dot.
    + exists l. split; [exact N|]. split; [|destruct T as [-> | ->]; [left; apply app_nil_r | now right]]. eapply Forall_impl; [|exact H]. intros a Ha. cbn beta in Ha. apply andb_prop in Ha as [A1 A2]. apply atom1; [exact A2|]. destruct a; discriminate.
    + apply no_intro1. apply forallb_forall. intros r Hr. rewrite forallb_forall in B. specialize (B r Hr). lia.
  - apply Forall_forall. intros r Hr. rewrite forallb_forall in B. specialize (B r Hr). left. lia.
  - intros K. rewrite forallb_forall in B. specialize (B 64 K). discriminate B.
Qed.

Lemma name_check n : forallb (fun b => b <? 256) n && (existsb (fun b => negb (plain_char b)) n || negb (blank_char (last n 0))) = true -> name_bytes n.
Proof.
  intros H. apply andb_prop in H as [H1 H2]. split; [apply Forall_forall; intros b Hb; rewrite forallb_forall in H1; specialize (H1 b Hb); lia|].
  intros P. apply orb_prop in H2 as [H2|H2]; [|now apply negb_true_iff]. apply existsb_exists in H2 as (b & Hb & E). rewrite Forall_forall in P. rewrite (P b Hb) in E. discriminate E.
Qed.

Example C52_met : Forall formattable some_addresses /\ map address_string some_addresses =
  [bs """Smith, \""J\"" \\ Jr."" <a.b@example.com>"; bs "=?utf-8?q?=F0=9F=98=80_\_x?= <""a, (b)""@[::1]:25>"; bs "=?utf-8?b?/y4g?= <" ++ [195; 169] ++ bs "@c.d.>"; bs "<"".""@e>"].
Proof.
  split; [|vm_compute; reflexivity]. constructor; [|constructor; [|constructor; [|constructor; [|constructor]]]].
  - exists (bs "a.b"), (bs "example.com"). split; [reflexivity|]. split; [now apply local_check|]. split; [|now apply name_check].
    apply (domain_check [bs "example"; bs "com"]) with (t := []); [repeat constructor | discriminate | now left | reflexivity].
  - exists (bs "a, (b)"), (bs "[::1]:25"). split; [reflexivity|]. split; [now apply local_check|]. split; [|now apply name_check].
    split; [|split; [apply Forall_forall; intros r Hr; left; cbn in Hr; repeat (destruct Hr as [<-|Hr]; [lia|]); contradiction | cbn; intuition discriminate]].
    right. exists (bs "[::1]"), (bs "25"). split; [reflexivity|]. split; [|split; [discriminate | repeat constructor]].
    apply (dm_literal (bs "::1")). do 3 (apply (lb_char []); [now left | reflexivity|]). apply lb_end. now left.
  - exists [233], (bs "c.d."). split; [reflexivity|]. split; [now apply local_check|]. split; [|now apply name_check].
    apply (domain_check [bs "c"; bs "d"]) with (t := bs "."); [repeat constructor | discriminate | now right | reflexivity].
  - exists (bs "."), (bs "e"). split; [reflexivity|]. split; [now apply local_check|]. split; [|now apply name_check].
    apply (domain_check [bs "e"]) with (t := []); [repeat constructor | discriminate | now left | reflexivity].
Qed.

(** What ParseAddressList returns is not always formattable: a name that ends in a blank loses it, the
    empty address cannot be parsed again, and characters beyond U+FFFF vanish from local parts. *)
Theorem C52_fails_for_blanks_at_the_end : let a := mkAddr (bs "a ") (bs "b@c") in
  ParseAddressList env0 (bs "=?utf-8?q?a_?= <b@c>") = Ret (Some [a]) None /\ ParseAddressList env0 (address_string a) = Ret (Some [mkAddr (bs "a") (bs "b@c")]) None.
Proof. split; vm_compute; reflexivity. Qed.

Theorem C52_fails_for_the_empty_address : let a := mkAddr [] [] in
  ParseAddressList env0 (bs "<>") = Ret (Some [a]) None /\ ParseAddressList env0 (address_string a) = Ret None (Some ESyntax).
Proof. split; vm_compute; reflexivity. Qed.

Theorem C52_fails_beyond_the_plane : let a := mkAddr [] (encode [97; 128512] ++ bs "@c") in
  ParseAddressList env0 (address_string a) = Ret (Some [mkAddr [] (bs "a@c")]) None.
Proof. vm_compute. reflexivity. Qed.
