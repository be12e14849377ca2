(** C21-C24, C31, C45: what holds of every accepted address list. *)
From Coq Require Import String List NArith ZArith Bool Arith Lia.
From Verif Require Import Lexer Grammar Utf8 Strs Mime GoTime Parser Walker Api Spec ParserFacts
  WalkerFacts Static Total Cfws LangFacts LexFacts Utf8Facts First DateSpec AddrSpec Chosen AddrSem CharFacts PropApi DateMore.
Import ListNotations.

Lemma reading e s sl : s <> [] -> ParseAddressList e s = Ret sl None ->
  Forall lexed (toks (kept s)) /\
  r_list (r_address (reader (wenv_of e))) [T_Comma; T_Semicolon] (toks (kept s)) (elems sl).
Proof.
  intros Hs H. destruct (parse_address_list_cases e s) as [[E _]|[[_ [N H1]]|[_ [ch [S [D [Y [K H1]]]]]]]].
  - contradiction.
  - rewrite H1 in H. discriminate.
  - rewrite H1 in H. injection H as <-. split; [apply toks_lexed|].
    destruct (den_addresses (wenv_of e) ch (selected_chosen _ _ _ S) K) as (w & l & E & El & R).
    apply selected_lang in S. apply accepted_tokens in S. rewrite Y, S in E.
    assert (exists k, l = [k]) as [k ->]. { destruct l as [|k [|? ?]]; try discriminate. eauto. }
    apply app_inj_tail in E as [E _]. unfold kept, toks. rewrite E. exact R.
Qed.

(** ** C23, C24: counting *)
Definition cnt (ts : list ttype) (w : word) : nat := length (filter (fun t => memb (tt t) ts) w).

Lemma cnt_app ts u v : cnt ts (u ++ v) = (cnt ts u + cnt ts v)%nat.
Proof. unfold cnt. now rewrite filter_app, app_length. Qed.

Lemma cnt_cons ts t v : cnt ts (t :: v) = ((if memb (tt t) ts then 1 else 0) + cnt ts v)%nat.
Proof. unfold cnt. cbn [filter]. destruct (memb (tt t) ts); reflexivity. Qed.

Lemma cnt_in ts t : In (tt t) ts -> memb (tt t) ts = true.
Proof. apply memb_In. Qed.

Definition seps2 : list ttype := [T_Comma; T_Semicolon].
Definition marks : list ttype := [T_At; T_Less].

Section COUNT.
Variable rd : charset_reader.

Lemma addrspec_marks w a : r_addrspec rd w a -> (1 <= cnt marks w)%nat.
Proof. destruct 1; rewrite !cnt_app, cnt_cons; rewrite H0; cbn; lia. Qed.

Lemma angle_marks w a : r_angle rd w a -> (1 <= cnt marks w)%nat.
Proof. destruct 1; rewrite !cnt_app, cnt_cons; rewrite H0; cbn; lia. Qed.

Lemma mailbox_marks w a : r_mailbox rd w a -> (1 <= cnt marks w)%nat.
Proof.
  destruct 1 as [wn n wa a H1 H2|wa a H|w a H].
  - rewrite cnt_app. apply angle_marks in H2. lia.
  - eapply angle_marks; eauto.
  - eapply addrspec_marks; eauto.
Qed.

Lemma tail_count P seps w l (f : word -> nat) : r_tail P seps w l ->
  (forall x l, P x l -> (length l <= 1 + cnt seps2 x)%nat) ->
  (forall t, In t seps -> In t seps2) -> (length l <= cnt seps2 w)%nat.
Proof.
  intros H HP HS. induction H as [|k x l w l' Hk Hx Hw IH|k x w l' Hk Hx Hw IH].
  - cbn. lia.
  - rewrite app_length, cnt_cons, cnt_app, (cnt_in seps2 k) by auto. specialize (HP _ _ Hx). lia.
  - rewrite cnt_cons, cnt_app, (cnt_in seps2 k) by auto. lia.
Qed.

Lemma list_count P seps w l : r_list P seps w l ->
  (forall x l, P x l -> (length l <= 1 + cnt seps2 x)%nat) ->
  (forall t, In t seps -> In t seps2) -> (length l <= 1 + cnt seps2 w)%nat.
Proof.
  intros (j & x & l1 & t & l2 & -> & HJ & Hx & Ht & ->) HP HS. rewrite app_length, !cnt_app.
  apply (tail_count P seps t l2 (cnt seps2)) in Ht; auto. specialize (HP _ _ Hx). lia.
Qed.

Lemma address_count w l : r_address rd w l -> (length l <= 1 + cnt seps2 w)%nat.
Proof.
  destruct 1 as [w a H|w l H _]; [cbn; lia|].
  destruct H as (q1 & wn & n & c & wl & q2 & sc & u & -> & _ & _ & _ & H & _).
  rewrite !cnt_app, cnt_cons, !cnt_app.
  assert (length l <= 1 + cnt seps2 wl)%nat; [|lia].
  destruct H as [|w l H|w H|w H]; cbn; try lia.
  apply (list_count _ _ _ _ H).
  - intros x l' [a [_ ->]]. cbn. lia.
  - intros t [<-|[]]. cbn. auto.
Qed.

Lemma tail_marks P seps w l : r_tail P seps w l ->
  (forall x l, P x l -> (length l <= cnt marks x)%nat) -> (length l <= cnt marks w)%nat.
Proof.
  intros H HP. induction H as [|k x l w l' Hk Hx Hw IH|k x w l' Hk Hx Hw IH].
  - cbn. lia.
  - rewrite app_length, cnt_cons, cnt_app. specialize (HP _ _ Hx). lia.
  - rewrite cnt_cons, cnt_app. lia.
Qed.

Lemma list_marks P seps w l : r_list P seps w l ->
  (forall x l, P x l -> (length l <= cnt marks x)%nat) -> (length l <= cnt marks w)%nat.
Proof.
  intros (j & x & l1 & t & l2 & -> & HJ & Hx & Ht & ->) HP. rewrite app_length, !cnt_app.
  apply tail_marks in Ht; auto. specialize (HP _ _ Hx). lia.
Qed.

Lemma address_marks w l : r_address rd w l -> (length l <= cnt marks w)%nat.
Proof.
  destruct 1 as [w a H|w l H _]; [apply mailbox_marks in H; cbn; lia|].
  destruct H as (q1 & wn & n & c & wl & q2 & sc & u & -> & _ & _ & _ & H & _).
  rewrite !cnt_app, cnt_cons, !cnt_app.
  assert (length l <= cnt marks wl)%nat; [|lia].
  destruct H as [|w l H|w H|w H]; cbn; try lia.
  apply (list_marks _ _ _ _ H). intros x l' [a [Ha ->]]. apply mailbox_marks in Ha. cbn. lia.
Qed.

Lemma address_colon w l : r_address rd w l -> cnt [T_Colon] w = 0%nat -> (1 <= length l)%nat.
Proof.
  destruct 1 as [w a H|w l H _]; [cbn; lia|]. intros E. exfalso.
  destruct H as (q1 & wn & n & c & wl & q2 & sc & u & -> & _ & _ & Hc & _).
  rewrite !cnt_app, cnt_cons, Hc in E. cbn in E. lia.
Qed.
End COUNT.

(** Counting an ASCII character in the input bytes, in the characters and in the tokens. *)
Lemma decode1_hi b s r s1 : decode1 b s = (r, s1) ->
  (b < 128 /\ r = b /\ s1 = s)%N \/
  (128 <= b /\ 128 <= r /\ exists p, s = p ++ s1 /\ Forall (fun x => 128 <= x) p)%N.
Proof.
  intros E. destruct (N.lt_ge_cases b 128) as [Hb|Hb].
  - left. unfold decode1 in E. destruct (N.ltb_spec b 128); [|lia]. injection E as <- <-. auto.
  - right. split; [exact Hb|]. revert E. unfold decode1, rune_error.
    assert (N0 : forall (t : gostring) r, (128 <= r)%N -> (128 <= r)%N /\ exists p, t = p ++ t /\ Forall (fun x => 128 <= x)%N p).
    { intros t r' H. split; [exact H|]. exists []. split; [reflexivity | constructor]. }
    destruct (N.ltb_spec b 128); [lia|].
    repeat match goal with
         | |- context [if ?b then _ else _] => destruct b eqn:?
         | |- context [match ?l with [] => _ | _ => _ end] => destruct l
         end; intros E; assert (Er := f_equal fst E); assert (Es := f_equal snd E); cbn [fst snd] in Er, Es; subst r s1; clear E; brange;
      try (apply N0; lia);
      repeat match goal with H : context [if ?b then _ else _] |- _ => destruct b eqn:? end;
      rewrite ?N.eqb_eq, ?N.eqb_neq in *; split; try lia;
      first [ eexists [_]; split; [reflexivity | repeat constructor; lia]
            | eexists [_; _]; split; [reflexivity | repeat constructor; lia]
            | eexists [_; _; _]; split; [reflexivity | repeat constructor; lia] ].
Qed.

Lemma count_hi c p : ascii c -> Forall (fun x => 128 <= x)%N p -> count_byte c p = 0%nat.
Proof.
  intros Hc H. unfold count_byte. induction H as [|x p Hx H IH]; [reflexivity|]. cbn [filter].
  destruct (N.eqb_spec c x); [unfold ascii in Hc; lia | exact IH].
Qed.

Lemma count_app c a b : count_byte c (a ++ b) = (count_byte c a + count_byte c b)%nat.
Proof. unfold count_byte. now rewrite filter_app, app_length. Qed.

Lemma count_decode c s : ascii c -> count_byte c (decode s) = count_byte c s.
Proof.
  intros Hc.
  assert (H : forall n s, (length s <= n)%nat -> count_byte c (decode s) = count_byte c s).
  { clear s. induction n as [|n IH]; intros s Hn.
    - destruct s; [reflexivity | cbn in Hn; lia].
    - destruct s as [|b s]; [reflexivity|]. rewrite decode_cons. destruct (decode1 b s) as [r s1] eqn:E.
      destruct (decode1_hi _ _ _ _ E) as [[_ [-> ->]]|[Hb [Hr [p [-> Hp]]]]].
      + unfold count_byte in *. cbn [filter]. destruct (c =? b)%N; cbn [length]; rewrite IH by len; reflexivity.
      + change (r :: decode s1) with ([r] ++ decode s1). change (b :: p ++ s1) with ([b] ++ p ++ s1).
        rewrite !count_app, (count_hi c [r]), (count_hi c [b]), (count_hi c p), IH by (auto || len). reflexivity. }
  apply (H (length s)). lia.
Qed.

Lemma count_bmp c rs : ascii c -> count_byte c (filter bmp rs) = count_byte c rs.
Proof.
  intros Hc. unfold count_byte. induction rs as [|r rs IH]; [reflexivity|]. cbn [filter].
  unfold bmp at 1. destruct (N.leb_spec r 65535); cbn [filter].
  - destruct (c =? r)%N; cbn [length]; now rewrite IH.
  - destruct (N.eqb_spec c r); [unfold ascii in Hc; lia | exact IH].
Qed.

Lemma count_kept c s : ascii c -> count_byte c (kept s) = count_byte c s.
Proof. intros Hc. unfold kept. rewrite count_bmp, count_decode; auto. Qed.

(** token types with one ASCII character *)
Definition single_char : list (ttype * rune) :=
  [(T_Comma, 44); (T_Semicolon, 59); (T_Colon, 58); (T_At, 64); (T_Less, 60); (T_DQuote, 34); (T_LBracket, 91); (T_Equal, 61); (T_Question, 63); (T_Period, 46)]%N.

Lemma lex_single r t c : In (t, c) single_char -> lex_rune r = Some t -> r = c.
Proof.
  intros H. unfold single_char in H. cbn [In] in H.
  repeat (destruct H as [H|H]; [injection H as <- <-|]); [| | | | | | | | | | destruct H];
  unfold lex_rune;
  repeat match goal with
         | |- context [if ?b then _ else _] =>
             let E := fresh "E" in destruct b eqn:E;
             [ intros H; first [discriminate H | apply N.eqb_eq in E; exact E] |]
         end; discriminate.
Qed.

Lemma lex_of_single t c : In (t, c) single_char -> tt (tok_of c) = t.
Proof.
  intros H. unfold single_char in H. cbn [In] in H.
  repeat (destruct H as [H|H]; [injection H as <- <-; reflexivity|]). destruct H.
Qed.

Lemma cnt_single t c rs : In (t, c) single_char -> Forall (fun r => bmp r = true) rs ->
  cnt [t] (toks rs) = count_byte c rs.
Proof.
  intros HI. unfold cnt, count_byte. induction 1 as [|r rs Hr H IH]; [reflexivity|]. cbn [toks map filter].
  fold (toks rs). pose proof (tok_of_lexed r Hr) as HL.
  destruct (memb (tt (tok_of r)) [t]) eqn:E.
  - apply memb_In in E as [E|[]]. unfold lexed in HL. rewrite <- E in HL. apply (lex_single _ _ c HI) in HL. cbn [tr tok_of] in HL.
    subst r. rewrite N.eqb_refl. cbn [length]. now rewrite IH.
  - destruct (N.eqb_spec c r) as [<-|N]; [|exact IH]. rewrite (lex_of_single _ _ HI) in E. cbn in E. rewrite N.eqb_refl in E. discriminate.
Qed.

Lemma kept_bmp s : Forall (fun r => bmp r = true) (kept s).
Proof. apply Forall_forall. intros r H. apply filter_In in H. tauto. Qed.

Lemma single_ascii t c : In (t, c) single_char -> ascii c.
Proof. intros H. cbn [In single_char] in H. unfold ascii. repeat (destruct H as [H|H]; [injection H as <- <-; lia|]). destruct H. Qed.

Lemma cnt_kept t c s : In (t, c) single_char -> cnt [t] (toks (kept s)) = count_byte c s.
Proof. intros H. rewrite (cnt_single t c) by (auto using kept_bmp). apply count_kept. eapply single_ascii; eauto. Qed.

Lemma cnt_two t1 t2 w : t1 <> t2 -> cnt [t1; t2] w = (cnt [t1] w + cnt [t2] w)%nat.
Proof.
  intros D. induction w as [|t w IH]; [reflexivity|]. rewrite !cnt_cons, IH. unfold memb, existsb.
  destruct (N.eqb_spec (tt t) t1) as [E1|E1]; destruct (N.eqb_spec (tt t) t2) as [E2|E2]; cbn [orb]; try lia.
Qed.

(** C23: at most one address more than there are commas and semicolons (also counting the ones in
    quoted strings, comments and names), and not more than there are '@' and '<'. *)
Theorem C23_count_bound : forall e s sl, s <> [] -> ParseAddressList e s = Ret sl None ->
  (length (elems sl) <= 1 + count_byte 44%N s + count_byte 59%N s)%nat /\
  (length (elems sl) <= count_byte 64%N s + count_byte 60%N s)%nat.
Proof.
  intros e s sl Hs H. apply reading in H as [_ R]; [|assumption]. split.
  - apply list_count in R; [|apply address_count | auto].
    unfold seps2 in R. rewrite cnt_two in R by discriminate.
    rewrite (cnt_kept T_Comma 44%N), (cnt_kept T_Semicolon 59%N) in R by (cbn; tauto). lia.
  - apply list_marks in R; [|apply address_marks].
    unfold marks in R. rewrite cnt_two in R by discriminate.
    rewrite (cnt_kept T_At 64%N), (cnt_kept T_Less 60%N) in R by (cbn; tauto). lia.
Qed.

(** C24 *)
Theorem C24_no_silent_empty_result : forall e s, s <> [] ->
  (forall sl, ParseAddressList e s = Ret sl None -> elems sl = [] -> In 58%N s) /\
  (* blank input, or more generally input without '@', '<' and ':', is rejected *)
  (~ In 58%N s -> ~ In 64%N s -> ~ In 60%N s -> ParseAddressList e s = Ret None (Some ESyntax)).
Proof.
  intros e s Hs.
  assert (Z : forall c, ~ In c s -> count_byte c s = 0%nat).
  { intros c Hc. unfold count_byte. destruct (filter (N.eqb c) s) as [|x l] eqn:E; [reflexivity|].
    assert (I : In x (filter (N.eqb c) s)) by (rewrite E; now left). apply filter_In in I as [I Ix].
    apply N.eqb_eq in Ix. subst x. contradiction. }
  assert (A : forall sl, ParseAddressList e s = Ret sl None -> elems sl = [] -> In 58%N s).
  { intros sl H E. destruct (in_dec N.eq_dec 58%N s) as [I|NI]; [exact I|]. exfalso.
    apply reading in H as [_ R]; [|assumption]. rewrite E in R.
    destruct R as (j & x & l1 & t & l2 & EW & HJ & Hx & Ht & EL).
    assert (C : cnt [T_Colon] (toks (kept s)) = 0%nat) by (rewrite (cnt_kept T_Colon 58%N) by (cbn; tauto); auto).
    rewrite EW, !cnt_app in C. apply address_colon in Hx; [|lia]. destruct l1; [cbn in Hx; lia | discriminate]. }
  split; [exact A|]. intros N1 N2 N3. destruct (parse_address_list_cases e s) as [[E _]|[[_ [_ H]]|[_ [ch [_ [_ [_ [_ H]]]]]]]].
  - contradiction.
  - exact H.
  - exfalso. pose proof H as H0. apply C23_count_bound in H0 as [_ H0]; [|assumption]. rewrite (Z 64%N), (Z 60%N) in H0 by assumption.
    apply N1. eapply A; [exact H|]. destruct (elems (list_value (wenv_of e) ch)); [reflexivity | cbn in H0; lia].
Qed.

Example C23_example : ParseAddressList env0 (bs "a@b,g:c@d;") = Ret (Some [mkAddr [] (bs "a@b"); mkAddr [] (bs "c@d")]) None /\
  ParseAddressList env0 (bs "g:;") = Ret None None /\ In 58%N (bs "g:;").
Proof. split; [vm_compute; reflexivity|]. split; [vm_compute; reflexivity|]. vm_compute. tauto. Qed.

(** * C21 *)
Definition addr_shape (a : gostring) : Prop :=
  a = [] \/
  exists l d p, a = l ++ bs "@" ++ encode (d ++ p) /\ (dot_atom d \/ bracketed d) /\ port_suffix p.

Section LISTS.
Variable rd : charset_reader.
Variable Q : addr -> Prop.
Variable G : word -> Prop.
Hypothesis HG : forall a b, G (a ++ b) -> G a /\ G b.
Hypothesis HM : forall w a, G w -> r_mailbox rd w a -> Q a.

Lemma G_tail t w : G (t :: w) -> G w.
Proof. intros H. change (t :: w) with ([t] ++ w) in H. now apply HG in H. Qed.

Lemma tail_forall P seps w l : r_tail P seps w l -> G w ->
  (forall x l, G x -> P x l -> Forall Q l) -> Forall Q l.
Proof.
  intros H L HP. induction H as [|k x l w l' Hk Hx Hw IH|k x w l' Hk Hx Hw IH]; [constructor| |];
    apply G_tail in L; apply HG in L as [L1 L2].
  - apply Forall_app. split; [apply (HP x); assumption | auto].
  - auto.
Qed.

Lemma list_forall P seps w l : r_list P seps w l -> G w ->
  (forall x l, G x -> P x l -> Forall Q l) -> Forall Q l.
Proof.
  intros (j & x & l1 & t & l2 & -> & HJ & Hx & Ht & ->) L HP. apply HG in L as [_ L]. apply HG in L as [L1 L2].
  apply Forall_app. split; [apply (HP x); assumption | eapply tail_forall; eauto].
Qed.

Lemma address_forall w l : G w -> r_address rd w l -> Forall Q l.
Proof.
  intros L. destruct 1 as [w a H|w l H _]; [constructor; [eapply HM; eauto | constructor]|].
  destruct H as (q1 & wn & n & c & wl & q2 & sc & u & -> & _ & _ & _ & H & _).
  apply HG in L as [_ L]. apply HG in L as [_ L]. apply G_tail in L.
  apply HG in L as [L1 _].
  destruct H as [|w l H|w H|w H]; try constructor. eapply list_forall; [exact H | exact L1 |].
  intros x l' Lx [a [Ha ->]]. constructor; [eapply HM; eauto | constructor].
Qed.

Lemma all_addresses w l : G w -> r_list (r_address rd) [T_Comma; T_Semicolon] w l -> Forall Q l.
Proof. intros L H. eapply list_forall; [exact H | exact L |]. intros x l' Lx Hx. eapply address_forall; eauto. Qed.
End LISTS.

Lemma addrspec_shape rd w a : Forall lexed w -> r_addrspec rd w a -> addr_shape a.
Proof.
  assert (D : forall w d, Forall lexed w -> r_domain w d -> exists x, d = encode x /\ (dot_atom x \/ bracketed x)).
  { intros w' d L H. destruct H as [u m u' H1 H2 H3]. apply Forall_app in L as [_ L]. apply Forall_app in L as [L _].
    exists (map tr m). split; [now apply text_lexed|]. destruct H2 as [H2|[H2|H2]].
    - left. now apply lang_dotAtom.
    - right. now apply lang_domainLiteral.
    - left. now apply lang_obsDomain. }
  intros L. destruct 1 as [wl l a wd d H1 H2 H3|wl l a wd d c p H1 H2 H3 H4 H5]; right; apply Forall_app in L as [_ L];
    inversion L as [|? ? _ L']; subst.
  - destruct (D _ _ L' H3) as [x [-> Hx]]. exists l, x, []. rewrite app_nil_r. split; [reflexivity|]. split; [exact Hx | now left].
  - apply Forall_app in L' as [L1 L2]. inversion L2 as [|? ? _ L3]; subst. destruct (D _ _ L1 H3) as [x [-> Hx]].
    destruct (lang_port p L3 H5) as [N HD].
    exists l, x, (bs ":" ++ map tr p). split.
    + unfold at_join. rewrite !encode_app. rewrite (text_lexed p L3). reflexivity.
    + split; [exact Hx|]. right. exists (map tr p). split; [reflexivity|]. split; [destruct p; [congruence | discriminate] | exact HD].
Qed.

Lemma mailbox_shape rd w a : Forall lexed w -> r_mailbox rd w a -> addr_shape (a_address a).
Proof.
  assert (A : forall w a, Forall lexed w -> r_angle rd w a -> addr_shape a).
  { intros w' a' L. destruct 1 as [u lt s a' gt u' _ _ H _ _| |u lt r s a' gt u' _ _ _ H _ _].
    - apply Forall_app in L as [_ L]. inversion L as [|? ? _ L']; subst. apply Forall_app in L' as [L' _]. eapply addrspec_shape; eauto.
    - now left.
    - apply Forall_app in L as [_ L]. inversion L as [|? ? _ L']; subst. apply Forall_app in L' as [_ L']. apply Forall_app in L' as [L' _].
      eapply addrspec_shape; eauto. }
  intros L. destruct 1 as [wn n wa a' H1 H2|wa a' H|w' a' H]; cbn [a_address].
  - apply Forall_app in L as [_ L]. eapply A; eauto.
  - eapply A; eauto.
  - eapply addrspec_shape; eauto.
Qed.

Theorem C21_address_shape : forall e s sl, ParseAddressList e s = Ret sl None ->
  Forall (fun a => addr_shape (a_address a)) (elems sl).
Proof.
  intros e s sl H. destruct s as [|b s]; [cbn in H; injection H as <-; constructor|].
  apply reading in H as [L R]; [|discriminate]. apply (all_addresses _ (fun a => addr_shape (a_address a)) (Forall lexed)) in R; [exact R | intros a0 b0 H; now apply Forall_app in H | | exact L].
  intros w a Lw Ha. eapply mailbox_shape; eauto.
Qed.

(** * C22 *)
(** No part of the input is an encoded word that can be decoded. *)
Definition undecodable (rd : charset_reader) (rs : list rune) : Prop :=
  forall u, part u rs -> word_decode rd (encode u) = None.

Definition all_text (l : list addr) : gostring := flat_map (fun a => a_name a ++ a_address a) l.

Definition from (w : word) (v : gostring) : Prop :=
  exists rs, v = encode rs /\ subseq (no_spaces rs) (no_spaces (map tr w)).

Lemma subseq_refl {A} (a : list A) : subseq a a.
Proof. induction a; constructor; assumption. Qed.

Lemma subseq_app {A} (a b c d : list A) : subseq a b -> subseq c d -> subseq (a ++ c) (b ++ d).
Proof.
  intros H H2. induction H as [b|x a b H IH|y a b H IH]; cbn [app].
  - induction b as [|y b IHb]; [exact H2 | now apply sub_drop].
  - now apply sub_take.
  - now apply sub_drop.
Qed.

Lemma from_nil w : from w [].
Proof. exists []. split; [reflexivity | constructor]. Qed.

Lemma from_app w1 w2 v1 v2 : from w1 v1 -> from w2 v2 -> from (w1 ++ w2) (v1 ++ v2).
Proof.
  intros [r1 [-> S1]] [r2 [-> S2]]. exists (r1 ++ r2). split; [now rewrite encode_app|].
  unfold no_spaces in *. rewrite map_app, !filter_app. now apply subseq_app.
Qed.

Lemma from_space w : from w (bs " ").
Proof. exists [32%N]. split; [reflexivity | constructor]. Qed.

Lemma from_text w : Forall lexed w -> from w (text w).
Proof. intros L. exists (map tr w). split; [now apply text_lexed | apply subseq_refl]. Qed.

Lemma from_l w1 w2 v : from w1 v -> from (w1 ++ w2) v.
Proof. intros H. rewrite <- (app_nil_r v). apply from_app; [assumption | apply from_nil]. Qed.

Lemma from_r w1 w2 v : from w2 v -> from (w1 ++ w2) v.
Proof. intros H. change v with ([] ++ v). apply from_app; [apply from_nil | assumption]. Qed.

Lemma from_mid u m u' v : from m v -> from (u ++ m ++ u') v.
Proof. intros H. now apply from_r, from_l. Qed.

Lemma from_tok ty c t : class_ok [ty] (N.eqb c) = true -> (c < 128)%N -> ty <> T_UTF8NonAscii -> lexed t -> tt t = ty -> from [t] [c].
Proof.
  intros H Hc Hty L E. pose proof (tok_char ty c t H Hc Hty L E) as X. exists [c]. cbn [map]. rewrite X.
  split; [|apply subseq_refl]. unfold encode. cbn [flat_map]. unfold encode1. destruct (N.ltb_spec c 128); [reflexivity | lia].
Qed.

Section FROM.
Variable rd : charset_reader.

Definition nodec (w : word) : Prop := Forall lexed w /\ undecodable rd (map tr w).

Lemma undecodable_app a b : undecodable rd (a ++ b) -> undecodable rd a /\ undecodable rd b.
Proof.
  intros H. split; intros u [x [y E]]; apply H.
  - exists x, (y ++ b). rewrite E, <- !app_assoc. reflexivity.
  - exists (a ++ x), y. rewrite E, <- !app_assoc. reflexivity.
Qed.

Lemma nodec_app a b : nodec (a ++ b) -> nodec a /\ nodec b.
Proof.
  intros [L U]. rewrite map_app in U. apply undecodable_app in U as [U1 U2]. apply Forall_app in L as [L1 L2].
  split; split; assumption.
Qed.

Lemma nodec_cons t b : nodec (t :: b) -> lexed t /\ nodec b.
Proof. intros H. change (t :: b) with ([t] ++ b) in H. apply nodec_app in H as [[L _] H]. inversion L. auto. Qed.

Ltac nd := repeat match goal with
  | H : nodec (_ ++ _) |- _ => apply nodec_app in H as [? ?]
  | H : nodec (_ :: _) |- _ => apply nodec_cons in H as [? ?]
  end.

Lemma from_text' w : nodec w -> from w (text w).
Proof. intros [L _]. now apply from_text. Qed.

Lemma from_qcontent w v : nodec w -> r_qcontent w v -> from w v.
Proof.
  intros N. destruct 1; nd.
  - rewrite <- (app_nil_r (tok_text t)). apply (from_text [t]). repeat constructor; assumption.
  - apply (from_r [b]). rewrite <- (app_nil_r (tok_text t)). apply (from_text [t]). repeat constructor; assumption.
  - apply from_nil.
Qed.

Lemma from_qvalue w v : r_qvalue w v -> nodec w -> from w v.
Proof.
  induction 1; intros N; [apply from_nil|]. nd. apply from_app; [apply from_text; apply H2|]. apply from_app; [eapply from_qcontent; eauto | auto].
Qed.

Lemma from_qstring w v : nodec w -> r_qstring w v -> from w v.
Proof.
  intros N (q1 & m & u & q2 & -> & _ & _ & H & _). nd. apply (from_r [q1]). apply from_l. eapply from_qvalue; eauto.
Qed.

Lemma from_enc w : nodec w -> from w (encoded_word_value rd (text w)).
Proof.
  intros [L U]. unfold encoded_word_value. rewrite (text_lexed w L). rewrite U; [rewrite <- (text_lexed w L); now apply from_text|].
  exists [], []. now rewrite app_nil_r.
Qed.

Lemma from_encs w v : r_encs rd w v -> nodec w -> from w v.
Proof.
  induction 1; intros N; nd.
  - apply from_mid. now apply from_enc.
  - apply from_r. apply from_app; [now apply from_enc|]. apply from_r. auto.
Qed.

Lemma from_word k w v : nodec w -> r_word rd k w v -> from w v.
Proof.
  intros N. destruct 1; nd.
  - now apply from_encs.
  - apply from_mid. now apply from_text'.
  - apply from_mid. eapply from_qstring; eauto.
Qed.

Lemma from_dname ws l : Forall2 (r_ditem rd) ws l -> nodec (concat ws) -> forall w n u, from w n -> from (w ++ concat ws) (dname n u l).
Proof.
  induction 1 as [|x i ws l Hi H IH]; intros N w n u F; cbn [concat dname].
  - now rewrite app_nil_r.
  - cbn [concat] in N. nd. rewrite app_assoc. destruct Hi; cbn [dname].
    + apply IH; [assumption|]. destruct u.
      * apply from_app; [assumption | eapply from_word; eauto].
      * destruct n as [|c n].
        -- apply from_r. eapply from_word; eauto.
        -- apply from_app; [|eapply from_word; eauto]. rewrite <- (app_nil_r w). apply from_app; [assumption | apply from_space].
    + apply IH; [assumption|]. apply from_app; [assumption|]. rewrite <- (app_nil_r (tok_text t)).
      now apply (from_text' [t]).
    + apply IH; [assumption|]. now apply from_l.
Qed.

Lemma from_display w v : nodec w -> r_display rd w v -> from w v.
Proof.
  intros N (k1 & w1 & v1 & ws & l & -> & H1 & H2 & _ & ->). nd. cbn [dname].
  apply from_dname; [assumption | assumption|]. eapply from_word; eauto.
Qed.

Lemma from_obslocal w l : r_obslocal rd w l -> nodec w -> from w (join (bs ".") l).
Proof.
  induction 1 as [k w v H|k w v p w' l H Hp H' IH]; intros N; nd.
  - cbn. eapply from_word; eauto.
  - destruct H'; cbn [join] in *.
    + apply from_app; [eapply from_word; eauto|]. change (p :: w0) with ([p] ++ w0). apply from_app; [|auto].
      apply (from_tok T_Period 46%N); auto; reflexivity || discriminate.
    + apply from_app; [eapply from_word; eauto|]. change (p :: w0 ++ p0 :: w') with ([p] ++ (w0 ++ p0 :: w')). apply from_app; [|auto].
      apply (from_tok T_Period 46%N); auto; reflexivity || discriminate.
Qed.

Lemma from_local w v : nodec w -> r_local rd w v -> from w v.
Proof.
  intros N. destruct 1; nd.
  - apply from_mid. now apply from_text'.
  - apply from_mid. eapply from_qstring; eauto.
  - now apply from_obslocal.
Qed.

Lemma from_domain w v : nodec w -> r_domain w v -> from w v.
Proof. intros N. destruct 1. nd. apply from_mid. now apply from_text'. Qed.

Lemma from_addrspec w v : nodec w -> r_addrspec rd w v -> from w v.
Proof.
  intros N. destruct 1; nd; unfold at_join.
  - apply from_app; [eapply from_local; eauto|]. change (a :: wd) with ([a] ++ wd). apply from_app; [|eapply from_domain; eauto].
    apply (from_tok T_At 64%N); auto; reflexivity || discriminate.
  - apply from_app; [eapply from_local; eauto|]. change (a :: wd ++ c :: p) with ([a] ++ wd ++ c :: p). apply from_app.
    + apply (from_tok T_At 64%N); auto; reflexivity || discriminate.
    + apply from_app; [eapply from_domain; eauto|]. change (c :: p) with ([c] ++ p). apply from_app.
      * apply (from_tok T_Colon 58%N); auto; reflexivity || discriminate.
      * now apply from_text'.
Qed.

Lemma from_angle w v : nodec w -> r_angle rd w v -> from w v.
Proof.
  intros N. destruct 1; nd.
  - apply from_r, (from_r [lt]), from_l. eapply from_addrspec; eauto.
  - apply from_nil.
  - apply from_r, (from_r [lt]), from_r, from_l. eapply from_addrspec; eauto.
Qed.

Lemma from_mailbox w a : nodec w -> r_mailbox rd w a -> from w (a_name a ++ a_address a).
Proof.
  intros N. destruct 1; nd; cbn [a_name a_address app].
  - apply from_app; [eapply from_display; eauto | eapply from_angle; eauto].
  - eapply from_angle; eauto.
  - eapply from_addrspec; eauto.
Qed.

Lemma all_text_app a b : all_text (a ++ b) = all_text a ++ all_text b.
Proof. apply flat_map_app. Qed.

Lemma from_tail P seps w l : r_tail P seps w l -> (forall x l, nodec x -> P x l -> from x (all_text l)) -> nodec w -> from w (all_text l).
Proof.
  intros H HP. induction H as [|k x l w l' Hk Hx Hw IH|k x w l' Hk Hx Hw IH]; intros N; nd.
  - apply from_nil.
  - rewrite all_text_app. apply (from_r [k]). apply from_app; auto.
  - apply (from_r [k]), from_r. auto.
Qed.

Lemma from_list P seps w l : r_list P seps w l -> (forall x l, nodec x -> P x l -> from x (all_text l)) -> nodec w -> from w (all_text l).
Proof.
  intros (j & x & l1 & t & l2 & -> & HJ & Hx & Ht & ->) HP N. nd. apply from_r. rewrite all_text_app.
  apply from_app; [auto | eapply from_tail; eauto].
Qed.

Lemma from_address w l : nodec w -> r_address rd w l -> from w (all_text l).
Proof.
  intros N. destruct 1 as [w a H|w l H _].
  - unfold all_text. cbn [flat_map]. rewrite app_nil_r. now apply from_mailbox.
  - destruct H as (q1 & wn & n & c & wl & q2 & sc & u & -> & _ & _ & _ & H & _). nd.
    apply from_r, from_r, (from_r [c]), from_l. destruct H as [|w l H|w H|w H]; try apply from_nil.
    eapply from_list; [exact H | | assumption]. intros x l' Nx [a [Ha ->]]. unfold all_text. cbn [flat_map]. rewrite app_nil_r. now apply from_mailbox.
Qed.

Lemma from_addresses w l : nodec w -> r_list (r_address rd) [T_Comma; T_Semicolon] w l -> from w (all_text l).
Proof. intros N H. eapply from_list; [exact H | | assumption]. intros. now apply from_address. Qed.
End FROM.

Theorem C22_nothing_invented : forall e s sl, ParseAddressList e s = Ret sl None ->
  undecodable (reader (wenv_of e)) (kept s) ->
  exists rs, all_text (elems sl) = encode rs /\ subseq (no_spaces rs) (no_spaces (kept s)).
Proof.
  intros e s sl H U. destruct s as [|b s]; [cbn in H; injection H as <-; exists []; split; [reflexivity | constructor]|].
  apply reading in H as [L R]; [|discriminate]. apply from_addresses in R.
  - destruct R as [rs [E S]]. exists rs. split; [exact E|]. unfold toks in S. rewrite map_tr_tok_of in S. exact S.
  - split; [exact L|]. unfold toks. rewrite map_tr_tok_of. exact U.
Qed.

Example C22_example : ParseAddressList env0 (bs "A  B <c@d>") = Ret (Some [mkAddr (bs "A B") (bs "c@d")]) None /\
  undecodable None (kept (bs "A  B <c@d>")).
Proof.
  split; [vm_compute; reflexivity|]. intros u [a [b E]]. unfold word_decode.
  destruct (has_prefix (bs "=?") (encode u)) eqn:HP; [exfalso | now rewrite orb_true_r].
  assert (I : In 61%N u).
  { destruct u as [|r u]; [discriminate|]. left.
    assert (Ir : In r (kept (bs "A  B <c@d>"))) by (rewrite E; apply in_app_iff; right; now left).
    vm_compute in Ir. repeat (destruct Ir as [<-|Ir]; [vm_compute in HP; discriminate|]). destruct Ir. }
  assert (I2 : In 61%N (kept (bs "A  B <c@d>"))) by (rewrite E; apply in_app_iff; right; apply in_app_iff; now left).
  vm_compute in I2. repeat (destruct I2 as [I2|I2]; [discriminate|]). destruct I2.
Qed.

(** A sufficient condition for [undecodable]: no "=?" in the input. *)
Lemma no_introducer rd rs : ~ part [61; 63]%N rs -> undecodable rd rs.
Proof.
  intros H u [a [b E]]. unfold word_decode. destruct (has_prefix (bs "=?") (encode u)) eqn:HP; [exfalso | now rewrite orb_true_r].
  apply H. destruct u as [|r u]; [discriminate|].
  assert (F : forall x t c q, ascii c -> encode1 x ++ t = c :: q -> x = c /\ q = t).
  { intros x t c q Hc Ex. assert (x = c) as ->.
    { unfold encode1 in Ex. revert Ex. unfold ascii in Hc.
      repeat match goal with |- context [if ?b then _ else _] => destruct b eqn:? end; intros Ex; cbn [app] in Ex; brange; assert (Y := f_equal (hd 0%N) Ex); cbn [hd] in Y; try lia. }
    split; [reflexivity|]. unfold encode1 in Ex. destruct (N.ltb_spec c 128); [|unfold ascii in Hc; lia]. cbn in Ex. now injection Ex. }
  unfold encode in HP. cbn [flat_map] in HP.
  destruct (encode1 r ++ flat_map encode1 u) as [|c q] eqn:Eq; [discriminate|]. cbn [has_prefix bs map list_ascii_of_string] in HP.
  apply andb_true_iff in HP as [H1 H2]. apply N.eqb_eq in H1. 
  assert (Hc1 : c = 61%N) by (rewrite <- H1; reflexivity). subst c. apply F in Eq as [-> ->]; [|unfold ascii; lia].
  destruct u as [|r2 u]; [discriminate|]. cbn [flat_map] in H2.
  destruct (encode1 r2 ++ flat_map encode1 u) as [|c q] eqn:Eq; [discriminate|]. cbn [has_prefix] in H2.
  apply andb_true_iff in H2 as [H2 _]. apply N.eqb_eq in H2.
  assert (Hc2 : c = 63%N) by (rewrite <- H2; reflexivity). subst c. apply F in Eq as [-> ->]; [|unfold ascii; lia].
  exists a, (u ++ b). rewrite E. reflexivity.
Qed.

(** * C31 *)
Definition visible_text (v : gostring) : Prop := exists rs, v = encode rs /\ Forall (fun r => visible r = true) rs.
Definition spaced_words (v : gostring) : Prop :=
  exists ws, v = encode (join (bs " ") ws) /\ Forall (fun w => w <> [] /\ Forall (fun r => visible r = true) w) ws.

Lemma visible_class r : bmp r = true -> memb (tt (tok_of r)) (types R_vchar) = visible r.
Proof.
  apply class_spec; [vm_compute; reflexivity|]. unfold visible. hi_range. reflexivity.
Qed.

Lemma visible_lexed w : Forall lexed w -> Forall (fun t => In (tt t) (types R_vchar)) w -> Forall (fun r => visible r = true) (map tr w).
Proof.
  intros L H. rewrite Forall_map. rewrite Forall_forall in *. intros t Ht. apply (class_lexed (types R_vchar) visible); auto using visible_class.
Qed.

Lemma visible_lang g w : Forall lexed w -> lang g w -> subset (alphabet g) (types R_vchar) = true ->
  Forall (fun r => visible r = true) (map tr w).
Proof.
  intros L H S. apply visible_lexed; [assumption|]. apply alphabet_lang in H. eapply Forall_impl; [|exact H].
  intros t Ht. eapply subset_In; eauto.
Qed.

Lemma vis_app a b : visible_text a -> visible_text b -> visible_text (a ++ b).
Proof. intros [x [-> Hx]] [y [-> Hy]]. exists (x ++ y). split; [now rewrite encode_app | apply Forall_app; auto]. Qed.

Lemma vis_text g w : Forall lexed w -> lang g w -> subset (alphabet g) (types R_vchar) = true -> visible_text (text w).
Proof. intros L H S. exists (map tr w). split; [now apply text_lexed | eapply visible_lang; eauto]. Qed.

Lemma vis_char c : ascii c -> visible c = true -> visible_text [c].
Proof. intros A V. exists [c]. split; [now rewrite encode_ascii by auto | auto]. Qed.

Section CLEAN.
Variable rd : charset_reader.

Definition clean (w : word) : Prop :=
  nodec rd w /\ Forall (fun t => tt t <> T_DQuote /\ tt t <> T_LBracket) w.

Lemma clean_app a b : clean (a ++ b) -> clean a /\ clean b.
Proof. intros [N H]. apply nodec_app in N as [N1 N2]. apply Forall_app in H as [H1 H2]. split; split; assumption. Qed.

Lemma clean_cons t b : clean (t :: b) -> clean [t] /\ clean b.
Proof. intros H. change (t :: b) with ([t] ++ b) in H. now apply clean_app in H. Qed.

Lemma clean_lexed w : clean w -> Forall lexed w.
Proof. intros [[L _] _]. exact L. Qed.

Ltac cl := repeat match goal with
  | H : clean (_ ++ _) |- _ => apply clean_app in H as [? ?]
  | H : clean (_ :: _ :: _) |- _ => apply clean_cons in H as [? ?]
  | H : clean (?t :: ?w) |- _ => match w with [] => fail 1 | _ => apply clean_cons in H as [? ?] end
  end.

Lemma no_qstring w v : clean w -> ~ r_qstring w v.
Proof. intros [_ H] (q1 & m & u & q2 & -> & E & _). inversion H as [|? ? [H1 _] _]; subst. contradiction. Qed.

Definition wordy (v : gostring) : Prop := v <> [] /\ visible_text v.

Lemma wordy_app a b : wordy a -> visible_text b -> wordy (a ++ b).
Proof. intros [N V] W. split; [destruct a; [congruence | discriminate] | now apply vis_app]. Qed.

Lemma text_nonempty w : Forall lexed w -> w <> [] -> text w <> [].
Proof.
  intros L N. destruct w as [|t w]; [congruence|]. inversion L; subst. unfold text. cbn [flat_map]. rewrite lexed_text by assumption.
  destruct (encode1_cons (tr t)) as [b [x ->]]. discriminate.
Qed.

Lemma wordy_enc w : clean w -> lang (Nt R_encodedWord) w -> wordy (encoded_word_value rd (text w)).
Proof.
  intros C H. pose proof (clean_lexed w C) as L. destruct C as [[_ U] _]. unfold encoded_word_value. rewrite (text_lexed w L).
  rewrite U by (exists [], []; now rewrite app_nil_r). rewrite <- (text_lexed w L). split.
  - apply text_nonempty; [assumption|]. intros ->. apply lang_nullable in H. vm_compute in H. discriminate.
  - eapply vis_text; [assumption | exact H |]. vm_compute. reflexivity.
Qed.

Lemma wordy_encs w v : r_encs rd w v -> clean w -> wordy v.
Proof.
  induction 1; intros C; cl.
  - now apply wordy_enc.
  - apply wordy_app; [now apply wordy_enc|]. apply IHr_encs. assumption.
Qed.

Lemma wordy_word k w v : clean w -> r_word rd k w v -> wordy v.
Proof.
  intros C. destruct 1; cl.
  - now apply wordy_encs in H.
  - split.
    + apply text_nonempty; [now apply clean_lexed|]. intros ->. apply lang_nullable in H0. vm_compute in H0. discriminate.
    + eapply vis_text; [now apply clean_lexed | exact H0 |]. vm_compute. reflexivity.
  - exfalso. match goal with H : r_qstring ?q ?v |- _ => apply (no_qstring q v); assumption end.
Qed.

(** a name so far: words, each non-empty *)
Definition sp_words (n : gostring) : Prop :=
  exists ws w, n = encode (join (bs " ") (ws ++ [w])) /\ Forall (fun w => w <> [] /\ Forall (fun r => visible r = true) w) (ws ++ [w]).

Lemma join_snoc_app sep ws (w x : gostring) : join sep (ws ++ [w]) ++ x = join sep (ws ++ [w ++ x]).
Proof.
  induction ws as [|a ws IH]; [reflexivity|]. cbn [app]. destruct (ws ++ [w]) as [|y l] eqn:E1; [destruct ws; discriminate|].
  destruct (ws ++ [w ++ x]) as [|y' l'] eqn:E2; [destruct ws; discriminate|]. 
  change (join sep (a :: y :: l)) with (a ++ sep ++ join sep (y :: l)). change (join sep (a :: y' :: l')) with (a ++ sep ++ join sep (y' :: l')).
  rewrite <- IH, <- !app_assoc. reflexivity.
Qed.

Lemma join_snoc_new sep ws (w x : gostring) : join sep (ws ++ [w]) ++ sep ++ x = join sep (ws ++ [w] ++ [x]).
Proof.
  induction ws as [|a ws IH]; [reflexivity|]. cbn [app] in *. destruct (ws ++ [w]) as [|y l] eqn:E1; [destruct ws; discriminate|].
  destruct (ws ++ [w; x]) as [|y' l'] eqn:E2; [destruct ws; discriminate|]. 
  change (join sep (a :: y :: l)) with (a ++ sep ++ join sep (y :: l)). change (join sep (a :: y' :: l')) with (a ++ sep ++ join sep (y' :: l')).
  rewrite <- IH, <- !app_assoc. reflexivity.
Qed.

Lemma sp_glue n v : sp_words n -> visible_text v -> sp_words (n ++ v).
Proof.
  intros (ws & w & -> & H) [x [-> Hx]]. exists ws, (w ++ x). rewrite <- encode_app, join_snoc_app. split; [reflexivity|].
  apply Forall_app in H as [H1 H2]. inversion H2 as [|? ? [H3 H4] _]; subst. apply Forall_app. split; [assumption|].
  constructor; [|constructor]. split; [destruct w; [exfalso; apply H3; reflexivity | discriminate] | apply Forall_app; auto].
Qed.

Lemma sp_new n v : sp_words n -> wordy v -> sp_words ((n ++ bs " ") ++ v).
Proof.
  intros (ws & w & -> & H) [N [x [-> Hx]]]. exists (ws ++ [w]), x. rewrite <- app_assoc.
  change (bs " ") with (encode (bs " ")) at 2. rewrite <- !encode_app. change (encode (bs " ")) with (bs " ").
  rewrite join_snoc_new, app_assoc. split; [reflexivity|]. apply Forall_app. split; [assumption|]. constructor; [|constructor].
  split; [|assumption]. intros ->. apply N. reflexivity.
Qed.

Lemma sp_first v : wordy v -> sp_words v.
Proof. intros [N [x [-> Hx]]]. exists [], x. split; [reflexivity|]. repeat constructor; [|assumption]. intros ->. apply N. reflexivity. Qed.

Lemma sp_dname ws l : Forall2 (r_ditem rd) ws l -> clean (concat ws) -> forall n u, sp_words n -> sp_words (dname n u l).
Proof.
  induction 1 as [|x i ws l Hi H IH]; intros C n u F; cbn [dname]; [assumption|].
  cbn [concat] in C. cl. destruct Hi; cbn [dname].
  - apply IH; [assumption|]. apply wordy_word in H2; [|assumption]. destruct u; [apply sp_glue; [assumption | apply H2]|].
    destruct n as [|c n]; [now apply sp_first | now apply sp_new].
  - apply IH; [assumption|]. apply sp_glue; [assumption|]. apply clean_lexed in H0. rewrite <- (app_nil_r (tok_text t)).
    change (tok_text t ++ []) with (text [t]). exists (map tr [t]). split; [now apply text_lexed|].
    apply visible_lexed; [assumption|]. constructor; [|constructor]. apply memb_In. destruct H2 as [<-|[<-|[]]]; vm_compute; reflexivity.
  - now apply IH.
Qed.

Lemma sp_display w v : clean w -> r_display rd w v -> sp_words v.
Proof. intros C (k1 & w1 & v1 & ws & l & -> & H1 & H2 & _ & ->). cl. cbn [dname]. apply (sp_dname ws); [assumption | assumption |]. apply sp_first. apply (wordy_word k1 w1); assumption. Qed.

Lemma vis_word k w v : clean w -> r_word rd k w v -> visible_text v.
Proof. intros C H. apply wordy_word in H; [apply H | exact C]. Qed.

Lemma vis_obslocal w l : r_obslocal rd w l -> clean w -> visible_text (join (bs ".") l).
Proof.
  induction 1 as [k w v H|k w v p w' l H Hp H' IH]; intros C; cl.
  - cbn. apply (vis_word k w); assumption.
  - assert (l <> []) by (destruct H'; discriminate). destruct l as [|x l]; [congruence|].
    change (visible_text (v ++ bs "." ++ join (bs ".") (x :: l))).
    apply vis_app; [apply (vis_word k w); assumption|]. apply vis_app; [apply vis_char; reflexivity | auto].
Qed.

Lemma vis_local w v : clean w -> r_local rd w v -> visible_text v.
Proof.
  intros C. destruct 1; cl.
  - eapply vis_text; [now apply clean_lexed | exact H0 | vm_compute; reflexivity].
  - exfalso. match goal with H : r_qstring ?q ?v |- _ => apply (no_qstring q v); assumption end.
  - eapply vis_obslocal; eauto.
Qed.

Lemma vis_domain w v : clean w -> r_domain w v -> visible_text v.
Proof.
  intros C. destruct 1. cl. destruct H0 as [H0|[H0|H0]].
  - eapply vis_text; [now apply clean_lexed | exact H0 | vm_compute; reflexivity].
  - exfalso. apply lang_nt in H0. change (body R_domainLiteral) with g_domainLiteral in H0. unfold g_domainLiteral in H0. cbn [seqs] in H0.
    apply lang_seq in H0 as [x [y [-> [Hx _]]]]. apply lang_cls in Hx as [t [-> [Ht|[]]]]. cl.
    match goal with H : clean [t] |- _ => destruct H as [_ H]; inversion H as [|? ? [_ X] _]; subst; auto end.
  - eapply vis_text; [now apply clean_lexed | exact H0 | vm_compute; reflexivity].
Qed.

Lemma vis_addrspec w v : clean w -> r_addrspec rd w v -> visible_text v.
Proof.
  intros C. destruct 1 as [wl l a wd d H1 H2 H3|wl l a wd d c p H1 H2 H3 H4 H5]; cl; unfold at_join;
    (apply vis_app; [apply (vis_local wl); assumption|]; apply vis_app; [apply vis_char; reflexivity|]).
  - apply (vis_domain wd); assumption.
  - apply vis_app; [apply (vis_domain wd); assumption|]. apply vis_app; [apply vis_char; reflexivity|].
    eapply vis_text; [now apply clean_lexed | eassumption | vm_compute; reflexivity].
Qed.

Lemma vis_angle w v : clean w -> r_angle rd w v -> visible_text v.
Proof.
  intros C. destruct 1 as [u lt s a gt u' _ _ H _ _| |u lt r s a gt u' _ _ _ H _ _]; cl.
  - apply (vis_addrspec s); assumption.
  - exists []. split; [reflexivity | constructor].
  - apply (vis_addrspec s); assumption.
Qed.

Lemma vis_mailbox w a : clean w -> r_mailbox rd w a -> spaced_words (a_name a) /\ visible_text (a_address a).
Proof.
  assert (Z : spaced_words []) by (exists []; split; [reflexivity | constructor]).
  intros C. destruct 1 as [wn n wa a H1 H2|wa a H|w a H]; cl; cbn [a_name a_address].
  - split; [|apply (vis_angle wa); assumption]. apply sp_display in H1; [|assumption]. destruct H1 as (ws & w & E & F). exists (ws ++ [w]). auto.
  - split; [exact Z | apply (vis_angle wa); assumption].
  - split; [exact Z | apply (vis_addrspec w); assumption].
Qed.
End CLEAN.

Lemma absent t c s : In (t, c) single_char -> ~ In c s -> Forall (fun k => tt k <> t) (toks (kept s)).
Proof.
  intros HI N0. assert (Z : cnt [t] (toks (kept s)) = 0%nat).
  { rewrite (cnt_kept t c) by assumption. unfold count_byte. induction s as [|x s IH]; [reflexivity|]. cbn [filter].
    destruct (N.eqb_spec c x) as [->|D]; [exfalso; apply N0; now left|]. apply IH. intros I. apply N0. now right. }
  revert Z. generalize (toks (kept s)). intros w. induction w as [|k w IH]; intros Z; [constructor|].
  rewrite cnt_cons in Z. unfold memb, existsb in Z. destruct (N.eqb_spec (tt k) t) as [E|E]; cbn [orb] in Z; [lia|].
  constructor; [exact E | auto].
Qed.

(** C31: an input with no double quote, no opening bracket and no decodable encoded word gives names
    made of visible characters in words separated by single spaces, and addresses made of visible
    characters only: no ASCII control character reaches a result. *)
Theorem C31_no_control_characters : forall e s sl, ParseAddressList e s = Ret sl None ->
  undecodable (reader (wenv_of e)) (kept s) -> ~ In 34%N s -> ~ In 91%N s ->
  Forall (fun a => spaced_words (a_name a) /\ visible_text (a_address a)) (elems sl).
Proof.
  intros e s sl H U Q B. destruct s as [|b s]; [cbn in H; injection H as <-; constructor|].
  apply reading in H as [L R]; [|discriminate].
  apply (all_addresses _ (fun a => spaced_words (a_name a) /\ visible_text (a_address a)) (clean (reader (wenv_of e)))) in R.
  - exact R.
  - intros x y. apply clean_app.
  - intros w a. apply vis_mailbox.
  - split.
    + split; [exact L|]. unfold toks. rewrite map_tr_tok_of. exact U.
    + pose proof (absent T_DQuote 34%N _ ltac:(cbn; tauto) Q) as F1. pose proof (absent T_LBracket 91%N _ ltac:(cbn; tauto) B) as F2.
      rewrite Forall_forall in *. intros k Hk. auto.
Qed.

Example C31_example : ParseAddressList env0 (bs "A  B <c@d>") = Ret (Some [mkAddr (bs "A B") (bs "c@d")]) None.
Proof. vm_compute. reflexivity. Qed.

(** With a quoted string, or a domain literal, a folded line break of the input reaches the result. *)
Theorem C31_line_break_in_quoted_name :
  ParseAddressList env0 ([34; 97; 13; 10; 32; 98; 34]%N ++ bs " <c@d>") =
    Ret (Some [mkAddr [97; 13; 10; 32; 98]%N (bs "c@d")]) None.
Proof. vm_compute. reflexivity. Qed.

Theorem C31_line_break_in_domain_literal :
  ParseAddressList env0 (bs "a@[x" ++ [13; 10; 32]%N ++ bs "y]") =
    Ret (Some [mkAddr [] (bs "a@[x" ++ [13; 10; 32]%N ++ bs "y]")]) None.
Proof. vm_compute. reflexivity. Qed.
