(** C53: what ParseAddressList returns can be formatted with mail.Address.String and parsed again. *)
From Coq Require Import String List NArith ZArith Bool Arith Lia ZifyN ZifyBool Zify.
From Verif Require Import Lexer Grammar Utf8 Strs Mime GoTime Parser Walker Api Spec ParserFacts
  WalkerFacts Static Total Cfws LangFacts LexFacts Utf8Facts First DateSpec AddrSpec Chosen AddrSem CharFacts PropApi PropInv
  ScanSpec ScanFacts ScanEnc ScanWords ScanName AddrText TextLang TextScan PropText PropAddr PropEnc EncText EncAlign PropFull NetMail PropNet.
Import ListNotations.
Local Open Scope N_scope.

(** * Which results *)

(** Address is local@domain with a local part as in C52, cut at the last at-sign; a closing bracket in
    the domain belongs to a domain literal, and "=?" is only in a literal; Name as in C52. *)
Definition reusable (a : addr) : Prop := name_bytes (a_name a) /\ exists l d,
  a_address a = encode l ++ bs "@" ++ d /\ local_text l /\ ~ In 64 d /\
  (In 93 d -> exists d', d = 91 :: d') /\ (no_intro d \/ exists d', d = 91 :: d').

(** * The domains of results *)

Definition good (t : tok) : Prop := lexed t /\ valid_rune (tr t).

Lemma good_lexed w : Forall good w -> Forall lexed w.
Proof. intros H. eapply Forall_impl; [|exact H]. intros t [K _]. exact K. Qed.

Lemma good_valid w : Forall good w -> Forall valid_rune (map tr w).
Proof. intros H. rewrite Forall_map. eapply Forall_impl; [|exact H]. intros t [_ K]. exact K. Qed.

Lemma kept_good s : bytes s -> Forall good (toks (kept s)).
Proof.
  intros B. apply decode_valid in B. unfold toks, kept. rewrite Forall_map. rewrite Forall_forall in *. intros r Hr. apply filter_In in Hr as [Hr Hb].
  split; [now apply tok_of_lexed|]. exact (B r Hr).
Qed.

Lemma blank_of w : Forall lexed w -> wsps w -> blanks (map tr w).
Proof.
  intros L H. unfold blanks. rewrite Forall_map. unfold wsps in H. rewrite Forall_forall in *. intros t Ht.
  apply (class_lexed [T_SP; T_TAB] blank_char); auto. intros r Hr. revert r Hr. apply class_spec; [vm_compute; reflexivity|]. intros r Hr. unfold blank_char. destruct (N.eqb_spec r 32); [lia|]. destruct (N.eqb_spec r 9); [lia|]. reflexivity.
Qed.

Lemma fold_of w : Forall lexed w -> opt_fws w -> optional fold (map tr w).
Proof.
  intros L H. apply fws_folded in H as [H|(x & cr & lf & y & -> & C & F & X & Y & N)].
  - destruct w as [|t w]; [now left|]. right. apply fold_plain; [discriminate | now apply blank_of].
  - apply Forall_app in L as [Lx L]. inversion_clear L as [|? ? Lc L']. inversion_clear L' as [|? ? Lf Ly]. right.
    rewrite map_app. cbn [map]. rewrite (tok_char T_CR 13 cr), (tok_char T_LF 10 lf) by (reflexivity || discriminate || auto).
    change (map tr x ++ 13 :: 10 :: map tr y) with (map tr x ++ [13; 10] ++ map tr y). apply fold_line; auto using blank_of. destruct y; [congruence | discriminate].
Qed.

Lemma literal_of w : Forall lexed w -> lang (Nt R_domainLiteral) w -> exists b, map tr w = bs "[" ++ b ++ bs "]" /\ literal_body b.
Proof.
  intros L H. apply lang_nt in H. change (body R_domainLiteral) with g_domainLiteral in H. unfold g_domainLiteral in H. cbn [seqs] in H.
  apply lang_seq in H as [u [v [-> [Hu H]]]]. apply lang_seq in H as [v1 [v2 [-> [H1 H]]]]. apply lang_seq in H as [v3 [v4 [-> [H3 H4]]]].
  apply lang_cls in Hu as [t1 [-> [T1|[]]]]. apply lang_cls in H4 as [t2 [-> [T2|[]]]].
  apply Forall_app in L as [L1 L]. apply Forall_app in L as [L2 L]. apply Forall_app in L as [L3 L4]. apply Forall_inv in L1, L4.
  exists (map tr (v1 ++ v3)). split.
  - rewrite !map_app. cbn [map]. rewrite (tok_char T_LBracket 91%N t1), (tok_char T_RBracket 93%N t2) by (reflexivity || discriminate || auto).
    rewrite <- app_assoc. reflexivity.
  - apply lang_star_inv in H1 as [us [-> H1]]. clear - L2 L3 H3 H1. induction H1 as [|u us Hu H IH]; [apply lb_end; cbn [concat app]; now apply fold_of|].
    cbn [concat] in *. apply Forall_app in L2 as [L1 L2]. apply lang_seq in Hu as [p [y [-> [Hp Hy]]]].
    apply Forall_app in L1 as [L0 L1]. apply single_lang in Hy as [t [-> Ht]]; [|reflexivity]. rewrite <- !app_assoc, map_app. cbn [app map].
    change (map tr p ++ tr t :: map tr (concat us ++ v3)) with (map tr p ++ [tr t] ++ map tr (concat us ++ v3)).
    apply lb_char; [now apply fold_of | | now apply IH]. apply Forall_inv in L1. exact (class_lexed (types R_dtext) dtext_char t dtext_class L1 Ht).
Qed.

Definition domain_shape (d : list rune) : Prop := dot_atom d \/ exists b, d = bs "[" ++ b ++ bs "]" /\ literal_body b.

Lemma domain_of w d : Forall good w -> r_domain w d -> exists x, d = encode x /\ domain_shape x /\ Forall valid_rune x.
Proof.
  intros G H. destruct H as [u m u' H1 H2 H3]. apply Forall_app in G as [_ G]. apply Forall_app in G as [G _]. pose proof (good_lexed m G) as L.
  exists (map tr m). split; [now apply text_lexed|]. split; [|now apply good_valid]. destruct H2 as [H2|[H2|H2]].
  - left. now apply lang_dotAtom.
  - right. now apply literal_of.
  - left. now apply lang_obsDomain.
Qed.

Definition full_shape (a : gostring) : Prop := a = [] \/
  exists l d p, a = l ++ bs "@" ++ encode (d ++ p) /\ domain_shape d /\ port_suffix p /\ Forall valid_rune (d ++ p).

Lemma spec_shape rd w a : Forall good w -> r_addrspec rd w a -> full_shape a.
Proof.
  intros G. destruct 1 as [wl l a wd d H1 H2 H3|wl l a wd d c p H1 H2 H3 H4 H5]; right; apply Forall_app in G as [_ G]; apply Forall_inv_tail in G.
  - destruct (domain_of _ _ G H3) as (x & -> & Hx & V). exists l, x, []. rewrite app_nil_r. split; [reflexivity|]. split; [exact Hx|]. split; [now left | exact V].
  - apply Forall_app in G as [G1 G2]. apply Forall_inv_tail in G2. destruct (domain_of _ _ G1 H3) as (x & -> & Hx & V).
    destruct (lang_port p (good_lexed p G2) H5) as [N HD]. exists l, x, (bs ":" ++ map tr p). split.
    + unfold at_join. rewrite !encode_app. rewrite (text_lexed p (good_lexed p G2)). reflexivity.
    + split; [exact Hx|]. split; [right; exists (map tr p); split; [reflexivity|]; split; [destruct p; [congruence | discriminate] | exact HD]|].
      apply Forall_app. split; [exact V|]. apply Forall_app. split; [constructor; [left; reflexivity | constructor] | now apply good_valid].
Qed.

Lemma box_shape rd w a : Forall good w -> r_mailbox rd w a -> full_shape (a_address a).
Proof.
  assert (A : forall w a, Forall good w -> r_angle rd w a -> full_shape a).
  { intros w' a' L. destruct 1 as [u lt s a' gt u' _ _ H _ _| |u lt r s a' gt u' _ _ _ H _ _].
    - apply Forall_app in L as [_ L]. apply Forall_inv_tail in L. apply Forall_app in L as [L _]. eapply spec_shape; eauto.
    - now left.
    - apply Forall_app in L as [_ L]. apply Forall_inv_tail in L. apply Forall_app in L as [_ L]. apply Forall_app in L as [L _]. eapply spec_shape; eauto. }
  intros L. destruct 1 as [wn n wa a' H1 H2|wa a' H|w' a' H]; cbn [a_address].
  - apply Forall_app in L as [_ L]. eapply A; eauto.
  - eapply A; eauto.
  - eapply spec_shape; eauto.
Qed.

Lemma all_shapes e s sl : bytes s -> ParseAddressList e s = Ret sl None -> Forall (fun a => full_shape (a_address a)) (elems sl).
Proof.
  intros B H. destruct s as [|b s]; [cbn in H; injection H as <-; constructor|].
  apply reading in H as [_ R]; [|discriminate]. apply (all_addresses _ (fun a => full_shape (a_address a)) (Forall good)) in R; [exact R | intros a0 b0 H; now apply Forall_app in H | | now apply kept_good].
  intros w a Lw Ha. eapply box_shape; eauto.
Qed.

(** * Reusable results are formattable *)

Lemma literal_chars b : literal_body b -> Forall (fun r => literal_char r = true) b.
Proof.
  assert (K : forall u, optional fold u -> Forall (fun r => literal_char r = true) u).
  { assert (B : forall u, blanks u -> Forall (fun r => literal_char r = true) u).
    { intros u H. eapply Forall_impl; [|exact H]. intros r Hr. cbn beta in Hr. unfold blank_char in Hr. assert (r = 32 \/ r = 9) as [-> | ->] by lia; reflexivity. }
    intros u [->|H]; [constructor|]. destruct H as [a _ H|a b' Ha _ Hb]; [now apply B|]. apply Forall_app. split; [now apply B|]. apply Forall_app. split; [repeat constructor | now apply B]. }
  induction 1 as [u Hu|u r b Hu Hr H IH]; [now apply K|]. apply Forall_app. split; [now apply K|]. apply Forall_app. split; [|exact IH].
  constructor; [|constructor]. unfold literal_char. unfold dtext in Hr. rewrite Hr. apply orb_true_r.
Qed.

Lemma dot_chars d : dot_atom d -> Forall (fun r => atext_char r = true \/ r = 46) d.
Proof.
  intros (l & _ & A & E). assert (J : Forall (fun r => atext_char r = true \/ r = 46) (join (bs ".") l)).
  { clear E. induction A as [|a l [_ Ha] A IH]; [constructor|]. assert (Ha' : Forall (fun r => atext_char r = true \/ r = 46) a) by (eapply Forall_impl; [|exact Ha]; auto).
    destruct l as [|b l]; [exact Ha'|]. change (join (bs ".") (a :: b :: l)) with (a ++ bs "." ++ join (bs ".") (b :: l)). apply Forall_app. split; [exact Ha'|]. constructor; [now right | exact IH]. }
  destruct E as [-> | ->]; [exact J|]. apply Forall_app. split; [exact J|]. constructor; [now right | constructor].
Qed.

Lemma dot_not d c : dot_atom d -> atext_char c = false -> c <> 46 -> ~ In c d.
Proof. intros D A N K. apply dot_chars in D. rewrite Forall_forall in D. destruct (D _ K) as [E|E]; congruence. Qed.

Lemma port_not p c : port_suffix p -> digit_char c = false -> c <> 58 -> ~ In c p.
Proof.
  intros [->|(ds & -> & _ & D)] A N K; [exact K|]. apply in_app_iff in K as [[K|[]]|K]; [exact (N (eq_sym K))|]. rewrite Forall_forall in D. rewrite (D _ K) in A. discriminate.
Qed.

Lemma encode_in d c : c < 128 -> In c (encode d) -> In c d.
Proof. intros H K. apply encode_bytes in K as [K|K]; [exact K | lia]. Qed.

Lemma encode_intro d : no_intro (encode d) -> no_intro d.
Proof. intros H p q ->. apply (H (encode p) (encode q)). rewrite !encode_app. reflexivity. Qed.

Lemma intro_part a b c : no_intro (a ++ b ++ c) -> no_intro b.
Proof. intros H p q ->. apply (H (a ++ p) (q ++ c)). now rewrite <- !app_assoc. Qed.

(** the last at-sign *)
Lemma at_cut a b c d : a ++ bs "@" ++ b = c ++ bs "@" ++ d -> ~ In 64 d -> (a = c /\ b = d) \/ exists x, b = x ++ bs "@" ++ d.
Proof.
  intros E N. destruct (app_cases _ _ _ _ E) as [(z & -> & K)|(z & -> & K)].
  - destruct z as [|z1 z]; cbn [bs app String.list_byte_of_string] in K.
    + left. rewrite app_nil_r. split; [reflexivity|]. change (64 :: d = 64 :: b) in K. injection K as ->. reflexivity.
    + exfalso. change (64 :: d = z1 :: z ++ 64 :: b) in K. injection K as _ ->. apply N. apply in_app_iff. right. now left.
  - destruct z as [|z1 z].
    + left. rewrite app_nil_r. split; [reflexivity|]. change (64 :: b = 64 :: d) in K. injection K as ->. reflexivity.
    + right. exists z. change (64 :: b = z1 :: z ++ 64 :: d) in K. injection K as _ ->. reflexivity.
Qed.

Lemma reusable_formattable a : full_shape (a_address a) -> reusable a -> formattable a.
Proof.
  intros S (Hn & l & dd & Ea & Hl & N64 & C93 & I). destruct S as [S|(l' & d & p & E & D & P & V)].
  - rewrite S in Ea. destruct (encode l); discriminate Ea.
  - rewrite Ea in E. symmetry in E. destruct (at_cut _ _ _ _ E N64) as [[-> <-]|(x & K)].
    + exists l, (d ++ p). split; [exact Ea|]. split; [exact Hl|]. split; [|exact Hn].
      assert (N : ~ In 64 (d ++ p)).
      { intros K. apply N64. apply in_split in K as (u & v & ->). rewrite encode_app. apply in_app_iff. right. now left. }
      split; [|split; [exact V | exact N]].
      assert (M : domain_m d).
      { destruct D as [D|(b & -> & D)]; [|now apply dm_literal]. apply dm_dot; [exact D|]. destruct I as [I|(d' & I)].
        - apply encode_intro in I. exact (intro_part [] d p I).
        - exfalso. pose proof (dot_not d 91 D eq_refl ltac:(discriminate)) as N91. pose proof (port_not p 91 P eq_refl ltac:(discriminate)) as M91.
          assert (In 91 (d ++ p)) as Z by (apply encode_in; [lia|]; rewrite I; now left). apply in_app_iff in Z as [Z|Z]; auto. }
      destruct P as [->|(ds & -> & Nd & Hd)]; [rewrite app_nil_r; now left|]. right. exists d, ds. repeat split; auto.
    + exfalso. assert (Np : ~ In 64 (encode p)) by (intros Z; apply encode_in in Z; [|lia]; revert Z; now apply port_not).
      assert (Z : In 64 (encode (d ++ p))) by (rewrite K; apply in_app_iff; right; now left).
      rewrite encode_app in Z. apply in_app_iff in Z as [Z|Z]; [|contradiction]. apply encode_in in Z; [|lia].
      destruct D as [D|(b & -> & D)]; [revert Z; now apply dot_not|]. apply literal_chars in D. rewrite Forall_forall in D.
      assert (M91 : ~ In 91 (encode b)) by (intros Y; apply encode_in in Y; [|lia]; specialize (D _ Y); discriminate D).
      rewrite !encode_app in K. rewrite <- !app_assoc in K. change (encode (bs "[")) with (bs "[") in K. change (encode (bs "]")) with (bs "]") in K.
      change (91 :: encode b ++ 93 :: encode p = x ++ 64 :: dd) in K.
      destruct x as [|x1 x]; [discriminate K|]. cbn [app] in K. injection K as <- K.
      destruct (app_cases _ _ _ _ K) as [(z & Eb & Ez)|(z & -> & Ez)].
      * destruct z as [|z1 z]; [discriminate Ez|]. cbn [app] in Ez. injection Ez as <- ->.
        destruct (C93 ltac:(apply in_app_iff; right; now left)) as (d' & Ed). destruct z as [|z1 z]; [discriminate Ed|]. cbn [app] in Ed. injection Ed as -> _.
        apply M91. rewrite Eb. apply in_app_iff. right. right. now left.
      * destruct z as [|z1 z]; [discriminate Ez|]. cbn [app] in Ez. injection Ez as _ Ez. apply Np. rewrite Ez. apply in_app_iff. right. now left.
Qed.

(** C53: a result whose addresses are reusable comes back when it is formatted and parsed again,
    whatever the input, CharsetReader and year of either call. *)
Theorem C53_results_survive_formatting : forall (e e' : env) (s : gostring) (l : list addr),
  bytes s -> ParseAddressList e s = Ret (Some l) None -> l <> [] -> Forall reusable l ->
  ParseAddressList e' (join (bs ", ") (map address_string l)) = Ret (Some l) None.
Proof.
  intros e e' s l B H N R. apply C52_format_parse_round_trip; [exact N|]. pose proof (all_shapes e s (Some l) B H) as S. cbn [elems] in S.
  rewrite Forall_forall in *. intros a Ha. apply reusable_formattable; auto.
Qed.

(** * Inputs whose results are reusable *)

Definition plain_word (w : word) : Prop :=
  Forall good w /\ no_intro (map tr w) /\ Forall (fun t => tt t <> T_DQuote /\ tt t <> T_LBracket) w.

Lemma plain_app a b : plain_word (a ++ b) -> plain_word a /\ plain_word b.
Proof.
  intros (G & I & F). apply Forall_app in G as [G1 G2]. apply Forall_app in F as [F1 F2]. rewrite map_app in I.
  split; (split; [assumption|]; split; [|assumption]).
  - exact (intro_part [] (map tr a) (map tr b) I).
  - apply (intro_part (map tr a) (map tr b) []). now rewrite app_nil_r.
Qed.

Lemma plain_cons t b : plain_word (t :: b) -> plain_word b.
Proof. intros H. change (t :: b) with ([t] ++ b) in H. now apply plain_app in H. Qed.

Lemma no_quotes w v : plain_word w -> ~ r_qstring w v.
Proof. intros (_ & _ & H) (q1 & m & u & q2 & -> & E & _). apply Forall_inv in H as [H _]. contradiction. Qed.

Lemma no_encoded w : plain_word w -> ~ lang (Nt R_encodedWord) w.
Proof.
  intros (G & I & _) H. destruct (EncSel.encoded_head w H) as (a & b & w' & -> & Ea & Eb). apply good_lexed in G. inversion_clear G as [|? ? La G']. apply Forall_inv in G'.
  apply (I [] (map tr w')). cbn [map]. rewrite (tok_char T_Equal 61 a), (tok_char T_Question 63 b) by (reflexivity || discriminate || auto). reflexivity.
Qed.

(** local parts: visible characters without "=?" *)
Definition plain_local (x : list rune) : Prop := x <> [] /\ Forall (fun r => visible r = true /\ bmp r = true /\ valid_rune r) x /\ no_intro x.

Lemma plain_local_of g w : plain_word w -> lang g w -> nullable g = false -> subset (alphabet g) (types R_vchar) = true -> text w = encode (map tr w) /\ plain_local (map tr w).
Proof.
  intros (G & I & _) H N S. pose proof (good_lexed w G) as L. split; [now apply text_lexed|]. split; [|split; [|exact I]].
  - intros E. apply map_eq_nil in E. subst w. apply lang_nullable in H. congruence.
  - pose proof (visible_lang g w L H S) as V. pose proof (good_valid w G) as W. rewrite Forall_forall in *. intros r Hr. split; [auto|]. split; [|auto].
    apply in_map_iff in Hr as (t & <- & Ht). apply lexed_bmp. auto.
Qed.

Lemma dot_intro x y : no_intro x -> no_intro y -> no_intro (x ++ bs "." ++ y).
Proof.
  intros Hx Hy p q E. destruct (app_cases _ _ _ _ E) as [(z & -> & K)|(z & -> & K)].
  - change (bs "=?" ++ q) with (61 :: 63 :: q) in K. change (bs "." ++ y) with (46 :: y) in K. destruct z as [|z1 [|z2 z]]; cbn [app] in K.
    + discriminate K.
    + injection K as _ K. discriminate K.
    + injection K as <- <- _. exact (Hx p z eq_refl).
  - destruct z as [|z1 z]; [discriminate K|]. change (46 :: y = z1 :: z ++ bs "=?" ++ q) in K. injection K as _ ->. exact (Hy z q eq_refl).
Qed.

Lemma plain_join x y : plain_local x -> plain_local y -> plain_local (x ++ bs "." ++ y).
Proof.
  intros (Nx & Fx & Ix) (Ny & Fy & Iy). split; [destruct x; [congruence | discriminate]|]. split; [|now apply dot_intro].
  apply Forall_app. split; [exact Fx|]. constructor; [|exact Fy]. split; [reflexivity|]. split; [reflexivity|]. left. reflexivity.
Qed.

Section PLAIN.
Variable rd : charset_reader.

Lemma word_plain k w v : plain_word w -> r_word rd k w v -> exists x, v = encode x /\ plain_local x.
Proof.
  intros P. destruct 1 as [w v H|u a u' U A U' _|u q u' v U Q U'].
  - exfalso. destruct H as [u x u' U E U'|u x u' w v U E U' _]; apply plain_app in P as [_ P]; apply plain_app in P as [P _]; revert E; now apply no_encoded.
  - apply plain_app in P as [_ P]. apply plain_app in P as [P _]. exists (map tr a). apply (plain_local_of (Nt R_atom)); auto; vm_compute; reflexivity.
  - exfalso. apply plain_app in P as [_ P]. apply plain_app in P as [P _]. revert Q. now apply no_quotes.
Qed.

Lemma obs_plain w l : r_obslocal rd w l -> plain_word w -> exists x, join (bs ".") l = encode x /\ plain_local x.
Proof.
  induction 1 as [k w v H|k w v p w' l H Hp H' IH]; intros P.
  - destruct (word_plain k w v P H) as (x & -> & X). exists x. split; [|exact X]. reflexivity.
  - apply plain_app in P as [P1 P2]. apply plain_cons in P2. destruct (word_plain k w v P1 H) as (x & -> & X). destruct (IH P2) as (y & E & Y).
    exists (x ++ bs "." ++ y). split; [|now apply plain_join]. rewrite !encode_app. rewrite <- E. destruct H' as [? ? ? ?|? ? ? ? ? ? ? ? ?]; reflexivity.
Qed.

Lemma local_plain w v : plain_word w -> r_local rd w v -> exists x, v = encode x /\ plain_local x.
Proof.
  intros P. destruct 1 as [u a u' U A U'|u q u' v U Q U'|w l H _].
  - apply plain_app in P as [_ P]. apply plain_app in P as [P _]. exists (map tr a). apply (plain_local_of (Nt R_dotAtom)); auto; vm_compute; reflexivity.
  - exfalso. apply plain_app in P as [_ P]. apply plain_app in P as [P _]. revert Q. now apply no_quotes.
  - now apply (obs_plain w l).
Qed.

Lemma domain_plain w v : plain_word w -> r_domain w v -> exists x, v = encode x /\ dot_atom x /\ no_intro x.
Proof.
  intros P. destruct 1 as [u m u' U M U']. apply plain_app in P as [_ P]. apply plain_app in P as [(G & I & F) _]. exists (map tr m). apply good_lexed in G.
  split; [now apply text_lexed|]. split; [|exact I]. destruct M as [M|[M|M]]; [now apply lang_dotAtom | | now apply lang_obsDomain].
  exfalso. destruct (EncBox.literal_head m M) as (t & m' & -> & T). apply Forall_inv in F as [_ F]. contradiction.
Qed.

Lemma visible_name r : visible r = true -> bmp r = true -> name_char r = true.
Proof. intros V B. unfold visible, bmp, name_char, in_range in *. lia. Qed.

Lemma visible_not_blank r : visible r = true -> blank_char r = false.
Proof. intros V. unfold visible, blank_char, in_range in *. lia. Qed.

Lemma last_in {A} (x : A) l d : In (last (x :: l) d) (x :: l).
Proof. revert x. induction l as [|y l IH]; intros x; [now left|]. right. exact (IH y). Qed.

Lemma plain_local_text x : plain_local x -> local_text x.
Proof.
  intros (N & F & I). split; [exact N|]. split; [eapply Forall_impl; [|exact F]; cbn beta; intros r (V & B & W); split; [now apply visible_name | exact W]|].
  split; [|now left]. destruct x as [|r x]; [congruence|]. rewrite Forall_forall in F. destruct (F _ (last_in r x 0)) as (V & _). now apply visible_not_blank.
Qed.

Lemma intro_colon x y : no_intro x -> no_intro y -> no_intro (x ++ bs ":" ++ y).
Proof.
  intros Hx Hy p q E. destruct (app_cases _ _ _ _ E) as [(z & -> & K)|(z & -> & K)].
  - change (bs "=?" ++ q) with (61 :: 63 :: q) in K. change (bs ":" ++ y) with (58 :: y) in K. destruct z as [|z1 [|z2 z]]; cbn [app] in K.
    + discriminate K.
    + injection K as _ K. discriminate K.
    + injection K as <- <- _. exact (Hx p z eq_refl).
  - destruct z as [|z1 z]; [discriminate K|]. change (58 :: y = z1 :: z ++ bs "=?" ++ q) in K. injection K as _ ->. exact (Hy z q eq_refl).
Qed.

(** "=?" in the bytes is "=?" in the characters *)
Lemma tail_high r b : In b (tl (encode1 r)) -> 128 <= b.
Proof.
  unfold encode1. destruct (r <? 128); [intros []|]. destruct (r <? 2048); [cbn [tl In]; intros [<-|[]]; lia|].
  destruct (_ || _)%bool; [cbn [tl In]; intros [<-|[<-|[]]]; lia|]. destruct (r <? 65536); cbn [tl In]; intros Hz; repeat (destruct Hz as [<-|Hz]; [lia|]); contradiction.
Qed.

Lemma encode1_ascii r : r < 128 -> encode1 r = [r].
Proof. intros H. unfold encode1. destruct (N.ltb_spec r 128); [reflexivity | lia]. Qed.

Lemma encode1_split r p q : encode1 r = p ++ q -> (p = [] /\ q = encode1 r) \/ (p = encode1 r /\ q = []) \/ (p <> [] /\ q <> [] /\ forall b, In b q -> 128 <= b).
Proof.
  intros E. destruct p as [|a p]; [left; split; [reflexivity | symmetry; exact E]|]. right. destruct q as [|c q]; [left; rewrite app_nil_r in E; auto|]. right.
  split; [discriminate|]. split; [discriminate|]. intros b Hb. apply (tail_high r). rewrite E. cbn [app tl]. apply in_app_iff. now right.
Qed.

Lemma intro_encode x : no_intro x -> no_intro (encode x).
Proof.
  induction x as [|r x IH]; intros I p q E; [destruct p; discriminate E|].
  assert (I' : no_intro x) by (intros p' q' ->; exact (I (r :: p') q' eq_refl)).
  change (encode1 r ++ encode x = p ++ bs "=?" ++ q) in E. destruct (app_cases _ _ _ _ E) as [(z & Ez & K)|(z & -> & K)]; [|exact (IH I' _ _ K)].
  destruct (encode1_split r p z Ez) as [[-> ->]|[[-> ->]|(_ & N & H)]].
  - clear Ez E. destruct (N.lt_ge_cases r 128) as [Hr|Hr].
    + rewrite encode1_ascii in K by exact Hr. change (61 :: 63 :: q = r :: encode x) in K. injection K as <- K. destruct x as [|r2 x]; [discriminate K|].
      change (63 :: q = encode1 r2 ++ encode x) in K. destruct (N.lt_ge_cases r2 128) as [H2|H2].
      * rewrite encode1_ascii in K by exact H2. injection K as <- _. exact (I [] x eq_refl).
      * assert (X : In 63 (encode1 r2)) by (destruct (encode1_cons r2) as [b [y Eb]]; rewrite Eb in K |- *; injection K as -> _; now left).
        apply encode1_bytes in X as [X|X]; [|lia]. subst r2. lia.
    + assert (X : In 61 (encode1 r)) by (destruct (encode1_cons r) as [b [y Eb]]; rewrite Eb in K |- *; injection K as <- _; now left).
      apply encode1_bytes in X as [X|X]; [|lia]. subst r. lia.
  - exact (IH I' [] q (eq_sym K)).
  - destruct z as [|b z]; [congruence|]. injection K as <- _. specialize (H 61 (or_introl eq_refl)). lia.
Qed.

Definition reusable_address (a : gostring) : Prop := exists l d, a = encode l ++ bs "@" ++ d /\ local_text l /\ ~ In 64 d /\
  (In 93 d -> exists d', d = 91 :: d') /\ (no_intro d \/ exists d', d = 91 :: d').

Lemma spec_plain w a : plain_word w -> r_addrspec rd w a -> reusable_address a.
Proof.
  intros P. destruct 1 as [wl l a wd d H1 H2 H3|wl l a wd d c p H1 H2 H3 H4 H5]; apply plain_app in P as [P1 P2]; apply plain_cons in P2; destruct (local_plain wl l P1 H1) as (x & -> & X).
  - destruct (domain_plain wd d P2 H3) as (y & -> & D & I). exists x, (encode y). split; [reflexivity|]. split; [now apply plain_local_text|].
    split; [intros K; apply encode_in in K; [|lia]; revert K; now apply dot_not|].
    split; [intros K; exfalso; apply encode_in in K; [|lia]; revert K; now apply dot_not|]. left. now apply intro_encode.
  - apply plain_app in P2 as [P2 P3]. apply plain_cons in P3. destruct (domain_plain wd d P2 H3) as (y & -> & D & I). destruct P3 as (G & Ip & _).
    apply good_lexed in G. destruct (lang_port p G H5) as [Np Dp]. rewrite (text_lexed p G). rewrite Forall_forall in Dp.
    assert (Z : forall c, c < 128 -> atext_char c = false -> c <> 46 -> c <> 58 -> ~ In c (encode y ++ bs ":" ++ encode (map tr p))).
    { intros b Hb A Nb N2 K. apply in_app_iff in K as [K|K]; [apply encode_in in K; [|exact Hb]; revert K; now apply dot_not|]. apply in_app_iff in K as [[K|[]]|K]; [exact (N2 (eq_sym K))|].
      apply encode_in in K; [|exact Hb]. specialize (Dp _ K). unfold digit_char in Dp. unfold atext_char in A. rewrite Dp in A. rewrite !orb_true_r in A. discriminate A. }
    exists x, (encode y ++ bs ":" ++ encode (map tr p)). split; [reflexivity|]. split; [now apply plain_local_text|].
    split; [apply Z; (reflexivity || discriminate)|]. split; [intros K; exfalso; revert K; apply Z; (reflexivity || discriminate)|].
    left. change (bs ":") with (encode (bs ":")). rewrite <- !encode_app. apply intro_encode. now apply intro_colon.
Qed.

Lemma box_plain w a : plain_word w -> r_mailbox rd w a -> a_address a = [] \/ reusable_address (a_address a).
Proof.
  assert (A : forall w a, plain_word w -> r_angle rd w a -> a = [] \/ reusable_address a).
  { intros w' a' L. destruct 1 as [u lt s a' gt u' _ _ H _ _| |u lt r s a' gt u' _ _ _ H _ _].
    - right. apply plain_app in L as [_ L]. apply plain_cons in L. apply plain_app in L as [L _]. eapply spec_plain; eauto.
    - now left.
    - right. apply plain_app in L as [_ L]. apply plain_cons in L. apply plain_app in L as [_ L]. apply plain_app in L as [L _]. eapply spec_plain; eauto. }
  intros L. destruct 1 as [wn n wa a' H1 H2|wa a' H|w' a' H]; cbn [a_address].
  - apply plain_app in L as [_ L]. eapply A; eauto.
  - eapply A; eauto.
  - right. eapply spec_plain; eauto.
Qed.
End PLAIN.

Lemma no_intro_undecodable rd s : no_intro s -> undecodable rd s.
Proof.
  intros I u (a & b & E). unfold word_decode. rewrite E in I. apply intro_part in I. apply intro_encode in I.
  assert (P : has_prefix (bs "=?") (encode u) = false).
  { destruct (encode u) as [|x [|y v]]; [reflexivity | cbn; now rewrite andb_false_r |]. change (has_prefix (bs "=?") (x :: y :: v)) with ((61 =? x) && ((63 =? y) && true))%bool.
    destruct (N.eqb_spec 61 x) as [<-|]; [|reflexivity]. destruct (N.eqb_spec 63 y) as [<-|]; [|reflexivity]. exfalso. exact (I [] v eq_refl). }
  rewrite P. cbn [negb]. rewrite orb_true_r. reflexivity.
Qed.

Lemma encode_byte x : Forall (fun b => b < 256) (encode x).
Proof.
  apply Forall_forall. intros b H. unfold encode in H. apply in_flat_map in H as (r & _ & H). revert H. unfold encode1.
  destruct (N.ltb_spec r 128); [intros [<-|[]]; lia|].
  destruct (N.ltb_spec r 2048); [cbn [In]; intros [<-|[<-|[]]]; lia|].
  destruct (in_range 55296 57343 r || (1114111 <? r))%bool eqn:C; [cbn [In]; intros [<-|[<-|[<-|[]]]]; lia|]. apply orb_false_iff in C as [_ C].
  destruct (N.ltb_spec r 65536); cbn [In]; intros K; repeat (destruct K as [<-|K]; [lia|]); contradiction.
Qed.

Lemma last_app_ne {A} (a b : list A) d : b <> [] -> last (a ++ b) d = last b d.
Proof.
  intros N. induction a as [|x a IH]; [reflexivity|]. cbn [app last]. destruct (a ++ b) eqn:E; [apply app_eq_nil in E as [_ E]; congruence | exact IH].
Qed.

Lemma encode_last x r : visible r = true -> blank_char (last (encode (x ++ [r])) 0) = false.
Proof.
  intros V. rewrite encode_app. assert (E : encode [r] = encode1 r) by (unfold encode; cbn [flat_map]; apply app_nil_r). rewrite E.
  destruct (encode1_cons r) as [b [y Eb]]. rewrite last_app_ne by (rewrite Eb; discriminate).
  assert (K : In (last (encode1 r) 0) (encode1 r)) by (rewrite Eb; apply last_in). apply encode1_bytes in K as [K|K]; [rewrite K; now apply visible_not_blank|].
  unfold blank_char. lia.
Qed.

Lemma join_last (sep : list rune) ws : Forall (fun w => w <> [] /\ Forall (fun r => visible r = true) w) ws -> ws <> [] ->
  exists x r, join sep ws = x ++ [r] /\ visible r = true.
Proof.
  intros H. induction H as [|w ws [Nw Vw] H IH]; intros N; [congruence|]. destruct ws as [|w2 ws].
  - destruct (exists_last Nw) as (x & r & ->). exists x, r. split; [reflexivity|]. apply Forall_app in Vw as [_ Vw]. now apply Forall_inv in Vw.
  - destruct (IH ltac:(discriminate)) as (x & r & E & V). exists (w ++ sep ++ x), r. split; [|exact V].
    change (join sep (w :: w2 :: ws)) with (w ++ sep ++ join sep (w2 :: ws)). rewrite E. now rewrite <- !app_assoc.
Qed.

Lemma spaced_name_bytes n : spaced_words n -> name_bytes n.
Proof.
  intros (ws & -> & F). split; [apply encode_byte|]. intros _. destruct ws as [|w ws]; [reflexivity|].
  destruct (join_last (bs " ") (w :: ws) F ltac:(discriminate)) as (x & r & -> & V). now apply encode_last.
Qed.

(** Inputs without quotes, opening brackets and "=?": every result in which no Address is empty comes
    back. *)
Theorem C53_plain_inputs : forall (e e' : env) (s : gostring) (l : list addr),
  bytes s -> ~ In 34 s -> ~ In 91 s -> no_intro (kept s) ->
  ParseAddressList e s = Ret (Some l) None -> l <> [] -> Forall (fun a => a_address a <> []) l ->
  ParseAddressList e' (join (bs ", ") (map address_string l)) = Ret (Some l) None.
Proof.
  intros e e' s l B Q Br I H N F. apply (C53_results_survive_formatting e e' s l B H N).
  pose proof (C31_no_control_characters e s (Some l) H (no_intro_undecodable _ _ I) Q Br) as C. cbn [elems] in C.
  assert (Hs : s <> []) by (intros ->; cbn in H; injection H as H; now apply N).
  apply reading in H as [_ R]; [|exact Hs]. cbn [elems] in R.
  apply (all_addresses _ (fun a => a_address a = [] \/ reusable_address (a_address a)) plain_word) in R.
  - rewrite Forall_forall in *. intros a Ha. destruct (C a Ha) as [Cn _]. destruct (R a Ha) as [K|K]; [now apply F in K|]. split; [now apply spaced_name_bytes | exact K].
  - intros x y. apply plain_app.
  - intros w a. apply box_plain.
  - split; [now apply kept_good|]. split; [unfold toks; rewrite map_tr_tok_of; exact I|].
    pose proof (absent T_DQuote 34%N _ ltac:(cbn; tauto) Q) as F1. pose proof (absent T_LBracket 91%N _ ltac:(cbn; tauto) Br) as F2.
    rewrite Forall_forall in *. intros k Hk. auto.
Qed.

(** The hypotheses are met: a group, an obsolete local part with spaces, a route, a port; and, for the
    first theorem, a quoted name, an encoded word, a quoted local part and a domain literal. *)
Definition plain_input : gostring := bs "(x) Grp : A. B <a . b@c (d)> , <@r1,@r2:p@q.r:25> ;; e@f.".
Definition plain_result : list addr := [mkAddr (bs "A.B") (bs "a.b@c"); mkAddr [] (bs "p@q.r:25"); mkAddr [] (bs "e@f.")].
Definition mixed_input : gostring := bs """A,\ B"" =?utf-8?q?=C3=A9?= <""x y""@[1.2 3]>, g: =?utf-8?q?a?= <z@w>;".
Definition mixed_result : list addr := [mkAddr (bs "A, B " ++ [195; 169]) (bs "x y@[1.2 3]"); mkAddr (bs "a") (bs "z@w")].

Lemma bytes_check s : forallb (fun b => b <? 256) s = true -> bytes s.
Proof. intros H. apply Forall_forall. intros b Hb. rewrite forallb_forall in H. apply N.ltb_lt. now apply H. Qed.

Lemma absent_check c (s : list N) : existsb (N.eqb c) s = false -> ~ In c s.
Proof. intros H K. assert (existsb (N.eqb c) s = true) by (apply existsb_exists; exists c; split; [exact K | apply N.eqb_refl]). congruence. Qed.

Example C53_plain_met : bytes plain_input /\ ~ In 34 plain_input /\ ~ In 91 plain_input /\ no_intro (kept plain_input) /\
  ParseAddressList env0 plain_input = Ret (Some plain_result) None /\ Forall (fun a => a_address a <> []) plain_result /\
  join (bs ", ") (map address_string plain_result) = bs """A.B"" <a.b@c>, <p@q.r:25>, <e@f.>".
Proof.
  split; [now apply bytes_check|]. split; [now apply absent_check|]. split; [now apply absent_check|]. split; [apply no_intro1; vm_compute; reflexivity|].
  split; [vm_compute; reflexivity|]. split; [repeat constructor; discriminate|]. vm_compute. reflexivity.
Qed.

Example C53_met : bytes mixed_input /\ ParseAddressList env0 mixed_input = Ret (Some mixed_result) None /\ Forall reusable mixed_result.
Proof.
  split; [now apply bytes_check|]. split; [vm_compute; reflexivity|]. constructor; [|constructor; [|constructor]].
  - split; [now apply name_check|]. exists (bs "x y"), (bs "[1.2 3]"). split; [reflexivity|]. split; [now apply local_check|]. split; [now apply absent_check|].
    split; [intros _; eexists; reflexivity|]. right. eexists. reflexivity.
  - split; [now apply name_check|]. exists (bs "z"), (bs "w"). split; [reflexivity|]. split; [now apply local_check|]. split; [now apply absent_check|].
    split; [intros K; exfalso; revert K; now apply absent_check|]. left. now apply no_intro1.
Qed.

(** The conditions are needed: an at-sign in a domain literal, a quoted string that is empty or ends in
    an escaped blank, a null address. *)
Theorem C53_fails_for_an_at_sign_in_a_literal : let a := mkAddr [] (bs "a@[b@c]") in
  ParseAddressList env0 (bs "a@[b@c]") = Ret (Some [a]) None /\ ParseAddressList env0 (address_string a) = Ret None (Some ESyntax).
Proof. split; vm_compute; reflexivity. Qed.

Theorem C53_fails_for_an_empty_local_part : let a := mkAddr [] (bs "@b") in
  ParseAddressList env0 (bs """""@b") = Ret (Some [a]) None /\ ParseAddressList env0 (address_string a) = Ret None (Some ESyntax).
Proof. split; vm_compute; reflexivity. Qed.

Theorem C53_fails_for_an_escaped_blank : let a := mkAddr [] (bs "a @b") in
  ParseAddressList env0 (bs """a\ ""@b") = Ret (Some [a]) None /\ ParseAddressList env0 (address_string a) = Ret (Some [mkAddr [] (bs "a@b")]) None.
Proof. split; vm_compute; reflexivity. Qed.
