(** C64: white space and comments before and after the whole input. *)
From Coq Require Import String List NArith ZArith Bool Arith Lia Setoid Morphisms.
From Verif Require Import Lexer Grammar Utf8 Strs Mime GoTime Parser Walker Api Spec ParserFacts
  WalkerFacts Static Total Cfws LangFacts LexFacts Utf8Facts First DateSpec AddrSpec Chosen AddrSem CharFacts PropApi PropInv PropDate
  ScanSpec AddrText MboxList TextLang EncText EncConv PropStable DateAccept AcceptText AcceptFacts PropAccept Lead.
Import ListNotations.
Local Open Scope text_scope.

(** the characters of white space; what a gap can begin with *)
Definition white : list rune := [32; 9; 13; 10]%N.
Definition opening : list rune := (white ++ [40])%N.

(** the first (last) character is one the lexer knows, and not one of these *)
Definition begins_not (bad : list rune) (x : list rune) : Prop := exists r y, x = r :: y /\ (r <= 65535)%N /\ ~ In r bad.
Definition ends_not (bad : list rune) (x : list rune) : Prop := exists r y, x = y ++ [r] /\ (r <= 65535)%N /\ ~ In r bad.

Lemma blank_class r : bmp r = true -> memb (tt (tok_of r)) blank_types = existsb (N.eqb r) opening.
Proof. apply (class_spec blank_types (fun r => existsb (N.eqb r) opening)); [vm_compute; reflexivity|]. intros c Hc. rewrite existsb_hi by (lia || reflexivity). reflexivity. Qed.

Lemma quote_class r : bmp r = true -> memb (tt (tok_of r)) (T_DQuote :: blank_types) = existsb (N.eqb r) (34%N :: opening).
Proof. apply (class_spec (T_DQuote :: blank_types) (fun r => existsb (N.eqb r) (34%N :: opening))); [vm_compute; reflexivity|]. intros c Hc. rewrite existsb_hi by (lia || reflexivity). reflexivity. Qed.

Lemma not_existsb r l : ~ In r l -> existsb (N.eqb r) l = false.
Proof. intros H. destruct (existsb (N.eqb r) l) eqn:E; [|reflexivity]. apply existsb_exists in E as (y & I & E). apply N.eqb_eq in E. subst. contradiction. Qed.

Lemma bmp_le r : (r <= 65535)%N -> bmp r = true.
Proof. intros H. unfold bmp. now apply N.leb_le. Qed.

(** ** Tokens *)
Lemma gap_tokens e g x : ogap g -> lex (bad_rune e) (g ++ x) = toks g ++ lex (bad_rune e) x.
Proof.
  intros H. apply gap_bmp in H. unfold lex. rewrite flat_map_app, <- app_assoc. f_equal. induction H as [|r g Hr _ IH]; [reflexivity|]. cbn [flat_map toks map]. rewrite IH.
  unfold lex1. destruct (lex_bmp r Hr) as [ty E]. unfold tok_of. rewrite E. reflexivity.
Qed.

Lemma head_token e r y : (r <= 65535)%N -> lex (bad_rune e) (r :: y) = tok_of r :: lex (bad_rune e) y.
Proof. intros H. apply bmp_le in H. unfold lex. cbn [flat_map]. unfold lex1 at 1. destruct (lex_bmp r H) as [ty E]. unfold tok_of. rewrite E. reflexivity. Qed.

Lemma begins_solid e x : begins_not (34%N :: opening) x -> solid (lex (bad_rune e) x).
Proof. intros (r & y & -> & B & N). rewrite head_token by exact B. cbn [solid]. rewrite quote_class by now apply bmp_le. now apply not_existsb. Qed.

Lemma begins_nonnil bad s : begins_not bad (decode s) -> s <> [].
Proof. intros (r & y & E & _) ->. discriminate. Qed.

Lemma longer_nonnil bad g s s' : decode s = g ++ decode s' -> begins_not bad (decode s') -> s <> [].
Proof. intros E (r & y & Er & _) ->. rewrite Er in E. destruct g; discriminate E. Qed.

Lemma same_tokens e s s' : s <> [] -> s' <> [] -> tokens e s = tokens e s' -> ParseAddressList e s = ParseAddressList e s' /\ ParseDateTime e s = ParseDateTime e s'.
Proof. intros H H' E. destruct s as [|b s]; [contradiction|]. destruct s' as [|b' s']; [contradiction|]. unfold ParseAddressList, ParseDateTime. rewrite E. auto. Qed.

(** ** C64: a gap before the list *)
Theorem C64_leading_gap : forall e g s s', ogap g -> decode s = g ++ decode s' -> begins_not (34%N :: opening) (decode s') ->
  ParseAddressList e s = ParseAddressList e s'.
Proof.
  intros e g s s' Hg E B. pose proof (begins_nonnil _ _ B) as N'. pose proof (longer_nonnil _ g s s' E B) as N.
  assert (T : tokens e s = toks g ++ tokens e s') by (unfold tokens; rewrite E; now apply gap_tokens).
  pose proof (begins_solid e _ B) as S. change (solid (tokens e s')) in S.
  destruct g as [|c g]; [apply same_tokens; auto|].
  assert (G : lang (Nt R_cfws) (toks (c :: g))) by (apply ogap_some; [reflexivity | now apply gap_cfws | discriminate]).
  destruct (parse_address_list_cases e s') as [[K _]|[(_ & K & P)|(_ & ch & Se & _ & _ & _ & P)]]; [contradiction | |]; rewrite P.
  - apply parse_address_list_err; [exact N|]. rewrite T, (lead_lang _ _ G S). exact K.
  - destruct (lead_selected _ _ ch G S Se) as (ch' & L & Se'). rewrite <- T in Se'. rewrite (parse_address_list_ok e s ch' N Se'). now rewrite (led_list _ _ _ L).
Qed.

(** Not so before a double quote: a group may be written in quotes, but not after a gap. *)
Theorem C64_not_before_a_quote : exists s, ParseAddressList env0 s = Ret (Some [mkAddr [] (bs "b@c")]) None /\
  ParseAddressList env0 (bs " " ++ s) = Ret None (Some ESyntax).
Proof. exists (bs """a:b@c"""). split; vm_compute; reflexivity. Qed.

(** ** Dates *)
Lemma gap_cut u v g x : u ++ v = g ++ x -> ogap u -> ogap g -> bmps v -> bmps x -> begins_not opening v -> begins_not opening x -> v = x.
Proof.
  assert (F : forall x, bmps x -> begins_not opening x -> firm (toks x)).
  { intros z _ (r & y & -> & B & N). cbn [toks map firm]. rewrite blank_class by now apply bmp_le. now apply not_existsb. }
  assert (C : forall g x, bmps x -> g <> [] -> ogap g -> begins_not opening (g ++ x) -> False).
  { intros g0 x0 Bx Ng H (r & y & E & B & N). destruct g0 as [|c g0]; [contradiction|]. cbn [app] in E. injection E as -> _.
    assert (L : lang (Nt R_cfws) (toks (r :: g0))) by (apply ogap_some; [reflexivity | now apply gap_cfws | discriminate]).
    destruct (cfws_first _ _ L) as [K _]. rewrite blank_class in K by now apply bmp_le. rewrite not_existsb in K by exact N. discriminate. }
  intros E Hu Hg Bv Bx Fv Fx. destruct u as [|cu u].
  - destruct g as [|cg g]; [exact E|]. cbn [app] in E. exfalso. apply (C (cg :: g) x Bx ltac:(discriminate) Hg). cbn [app]. rewrite <- E. exact Fv.
  - destruct g as [|cg g]; [exfalso; apply (C (cu :: u) v Bv ltac:(discriminate) Hu); cbn [app] in E |- *; rewrite E; exact Fx|].
    assert (Lu : lang (Nt R_cfws) (toks (cu :: u))) by (apply ogap_some; [reflexivity | now apply gap_cfws | discriminate]).
    assert (Lg : lang (Nt R_cfws) (toks (cg :: g))) by (apply ogap_some; [reflexivity | now apply gap_cfws | discriminate]).
    pose proof (f_equal toks E) as T. rewrite !toks_app in T. destruct (cut_gap _ _ _ _ T Lu Lg (F v Bv Fv) (F x Bx Fx)) as [_ K].
    apply (f_equal (map tr)) in K. now rewrite !tr_toks in K.
Qed.

(** texts that begin with a character that is visible *)
Definition visible (P : texts) : Prop := forall x, P x -> begins_not opening x.

Lemma begins_app bad x y : begins_not bad x -> begins_not bad (x ++ y).
Proof. intros (r & z & -> & B & N). exists r, (z ++ y). auto. Qed.

Lemma visible_cat P Q : visible P -> visible (P ;; Q).
Proof. intros H x (u & v & -> & Hu & _). now apply begins_app, H. Qed.

Lemma lead_gap P g x : visible P -> ogap g -> bmps x -> begins_not opening x -> ((ogap ;; P) (g ++ x) <-> (ogap ;; P) x).
Proof.
  intros V Hg Bx F. assert (K : forall g0, ogap g0 -> ((ogap ;; P) (g0 ++ x) <-> P x)).
  { intros g0 H0. split.
    - intros (u & v & E & Hu & Hv).
      assert (Bv : bmps v). { assert (B : bmps (u ++ v)) by (rewrite <- E; apply bmps_app; split; [now apply gap_bmp | exact Bx]). now apply bmps_app in B. }
      rewrite <- (gap_cut u v g0 x (eq_sym E) Hu H0 Bv Bx (V v Hv) F). exact Hv.
    - intros H. exists g0, x. auto. }
  rewrite (K g Hg). symmetry. apply (K []). now left.
Qed.

Lemma date_lead : exists A B, visible A /\ visible B /\ same date_texts ((ogap ;; A) <|> (ogap ;; B)).
Proof.
  unfold date_texts.
  match goal with |- context [optional (ogap ;; ?n ;; ?t) ;; (ogap ;; digit ;; ?d) ;; ?z] => set (N := n); set (T := t); set (D := d); set (Z := z) end.
  exists ((N ;; T) ;; (ogap ;; digit ;; D) ;; Z), ((digit ;; D) ;; Z). split; [|split].
  - apply visible_cat, visible_cat. intros x Hx. unfold N, named in Hx.
    assert (K : forallb (fun n => match n with [] => false | c :: _ => forallb (fun r => implb (lower_byte r =? c)%N (negb (existsb (N.eqb r) opening))) ascii_list end) day_names = true) by (vm_compute; reflexivity).
    rewrite forallb_forall in K. specialize (K _ Hx). destruct x as [|r x]; [discriminate K|]. change (to_lower (r :: x)) with (lower_byte r :: to_lower x) in K.
    destruct (N.lt_ge_cases r 128) as [L|L].
    + pose proof (ascii_forall _ K r L) as Kr. cbv beta in Kr. rewrite N.eqb_refl in Kr. cbn [implb] in Kr. apply negb_true_iff in Kr. exists r, x. split; [reflexivity|]. split; [lia|].
      intros I. rewrite (proj2 (existsb_exists (N.eqb r) opening)) in Kr; [discriminate|]. exists r. split; [exact I | apply N.eqb_refl].
    + exfalso. change (to_lower (r :: x)) with (lower_byte r :: to_lower x) in Hx. rewrite (low_hi r L) in Hx.
      assert (M : forallb (fun n => match n with [] => true | c :: _ => (c <? 128)%N end) day_names = true) by (vm_compute; reflexivity).
      rewrite forallb_forall in M. specialize (M _ Hx). cbv beta iota in M. apply N.ltb_lt in M. lia.
  - apply visible_cat, visible_cat. intros x (r & -> & Hr). exists r, []. split; [reflexivity|]. unfold digit_char in Hr.
    assert (48 <= r <= 57)%N by (unfold in_range in Hr; apply andb_true_iff in Hr as [H1 H2]; apply N.leb_le in H1; apply N.leb_le in H2; lia).
    split; [lia|]. cbn. lia.
  - intros x. split.
    + intros (u & v & -> & [->|Hu] & Hv).
      * right. cbn [app]. apply (cat_assoc ogap (digit ;; D) Z). exact Hv.
      * left. destruct Hu as (a & b & -> & Ha & Hb). exists a, (b ++ v). rewrite app_assoc. repeat split; auto. now exists b, v.
    + intros [(a & b & -> & Ha & u & v & -> & Hu & Hv)|H].
      * exists (a ++ u), v. rewrite app_assoc. repeat split; auto. right. now exists a, u.
      * exists [], x. repeat split; [now left|]. apply (cat_assoc ogap (digit ;; D) Z). exact H.
Qed.

Lemma kept_gap g s s' : ogap g -> decode s = g ++ decode s' -> kept s = g ++ kept s'.
Proof.
  intros H E. unfold kept. rewrite E, filter_app. f_equal. clear E. apply gap_bmp in H. induction H as [|r g Hr _ IH]; [reflexivity|]. cbn [filter]. rewrite Hr. now rewrite IH.
Qed.

Lemma gap_le g : ogap g -> Forall (fun r => (r <= 65535)%N) g.
Proof. intros H. apply gap_bmp in H. eapply Forall_impl; [|exact H]. intros r Hr. now apply N.leb_le. Qed.

Lemma gap_strip g y : ogap g -> bmps y -> strip 0 (g ++ y) = strip 0 y.
Proof.
  intros H B. destruct g as [|c g]; [reflexivity|].
  assert (L : lang (Nt R_cfws) (toks (c :: g))) by (apply ogap_some; [reflexivity | now apply gap_cfws | discriminate]).
  pose proof (cfws_skips _ L) as S. apply gap_bmp in H.
  assert (Ly : Forall lexed (toks y)) by (now apply toks_lexed_bmp). assert (Lg : Forall lexed (toks (c :: g))) by (now apply toks_lexed_bmp).
  pose proof (tscan_strip (toks y) Ly 0) as T1. pose proof (tscan_strip (toks (c :: g) ++ toks y) (proj2 (Forall_app _ _ _) (conj Lg Ly)) 0) as T2.
  rewrite map_app, !tr_toks in T2. rewrite tr_toks in T1. rewrite <- T1, <- T2. now rewrite (S 0).
Qed.

Lemma strip_kept s : strip_text s = strip 0 (kept s).
Proof. reflexivity. Qed.

(** A gap before a date. *)
Theorem C64_leading_gap_dates : forall e g s s', ogap g -> decode s = g ++ decode s' -> begins_not opening (decode s') ->
  ParseDateTime e s = ParseDateTime e s'.
Proof.
  intros e g s s' Hg E B. pose proof (begins_nonnil _ _ B) as N'. pose proof (longer_nonnil _ g s s' E B) as N.
  pose proof (kept_gap g s s' Hg E) as K. pose proof (kept_bmp s') as Bk.
  assert (F : begins_not opening (kept s')).
  { destruct B as (r & y & Er & Br & Nr). unfold kept. rewrite Er. cbn [filter]. rewrite (bmp_le r Br). exists r, (filter bmp y). auto. }
  assert (D : date_texts (kept s) <-> date_texts (kept s')).
  { destruct date_lead as (A & C & VA & VC & Sm). rewrite (Sm (kept s)), (Sm (kept s')), K. unfold either.
    rewrite (lead_gap A g _ VA Hg Bk F), (lead_gap C g _ VC Hg Bk F). reflexivity. }
  assert (X : lexes e s <-> lexes e s').
  { unfold lexes. rewrite E. split; intros H R; specialize (H R); [now apply Forall_app in H | apply Forall_app; split; [now apply gap_le | exact H]]. }
  pose proof (accepts_iff e s R_dateTime _ before_dateTime) as I. pose proof (accepts_iff e s' R_dateTime _ before_dateTime) as I'.
  assert (L : lang (Nt R_dateTime) (tokens e s) <-> lang (Nt R_dateTime) (tokens e s')) by (rewrite I, I', D, X; reflexivity).
  destruct (parse_date_time_cases e s') as [[M _]|[(_ & M & P')|(_ & ch' & Se' & _ & _ & _ & P')]]; [contradiction | |]; rewrite P'.
  - apply parse_date_time_err; [exact N|]. now rewrite L.
  - destruct (parse_date_time_cases e s) as [[M _]|[(_ & M & P)|(_ & ch & Se & _ & _ & _ & P)]]; [contradiction | exfalso; apply M, L; eapply selected_lang; exact Se' |].
    rewrite P. f_equal. apply (proj1 (proj2 (proj2 C34_read_from_stripped_text)) e s s'); auto.
    rewrite !strip_kept, K. now apply gap_strip.
Qed.

(** ** A gap at the end *)
Section Ends.
Variable bad : list rune.
Hypothesis bad_blank : In 32%N bad /\ In 9%N bad.

Definition final (x : list rune) : Prop := exists r y, x = y ++ [r] /\ ~ In r bad.

Lemma final_app u v : final (u ++ v) -> v <> [] -> final v.
Proof. intros (r & y & E & N) H. destruct v as [|c v _] using rev_ind; [contradiction|]. rewrite app_assoc in E. apply app_inj_tail in E as [_ ->]. now exists r, v. Qed.

Lemma final_nil : ~ final [].
Proof. intros (r & y & E & _). now destruct y. Qed.

Lemma blanks_not_final a : blanks a -> ~ final a.
Proof.
  intros B (r & y & -> & N). unfold blanks in B. rewrite Forall_app in B. destruct B as [_ B]. apply Forall_inv in B. unfold blank_char in B.
  apply orb_true_iff in B as [B|B]; apply N.eqb_eq in B; subst r; destruct bad_blank; contradiction.
Qed.

Lemma fold_not_final x : fold x -> ~ final x.
Proof.
  intros H F. destruct H as [a N B|a b B N B']; [exact (blanks_not_final a B F)|]. apply (blanks_not_final b B'). apply (final_app a) in F; [|discriminate]. now apply (final_app [13; 10]%N) in F.
Qed.

Lemma comments_nonnil x : comments x -> x <> [].
Proof. intros H. destruct H as [u c u' _ (b & -> & _) _|u c x _ (b & -> & _) _]; destruct u; discriminate. Qed.

Lemma comments_grow x g : comments x -> final x -> ogap g -> comments (x ++ g).
Proof.
  intros H F Hg. induction H as [u c u' Hu Hc Hu'|u c x Hu Hc Hx IH].
  - destruct Hu' as [->|Hu']; [|exfalso; apply (fold_not_final u' Hu'); rewrite app_assoc in F; apply final_app in F; [exact F | now apply fold_nonnil]].
    rewrite app_nil_r, <- app_assoc. destruct Hg as [->|[Hg|Hg]]; [apply cs_one; auto; now left | apply cs_one; auto; now right | now apply cs_more].
  - rewrite <- !app_assoc. apply cs_more; auto. apply IH. rewrite app_assoc in F. apply final_app in F; [exact F | now apply comments_nonnil].
Qed.

(** [P] takes a gap at the end *)
Definition grows (P : texts) : Prop := (forall x g, P x -> final x -> ogap g -> P (x ++ g)) /\ (P [] -> forall g, ogap g -> P g).

Lemma grows_gap : grows ogap.
Proof.
  split; [|auto]. intros x g H F Hg. destruct H as [->|[H|H]]; [exact Hg | exfalso; exact (fold_not_final x H F) | right; right; now apply comments_grow].
Qed.

Lemma grows_cat P Q : grows Q -> grows (P ;; Q).
Proof.
  intros [H1 H2]. split.
  - intros x g (u & v & -> & Hu & Hv) F Hg. exists u, (v ++ g). rewrite app_assoc. repeat split; auto. destruct v as [|c v]; [now apply H2|]. apply H1; auto. now apply final_app in F.
  - intros (u & v & E & Hu & Hv) g Hg. symmetry in E. apply app_eq_nil in E as [-> ->]. exists [], g. auto.
Qed.

Lemma grows_either P Q : grows P -> grows Q -> grows (P <|> Q).
Proof.
  intros [P1 P2] [Q1 Q2]. split; [intros x g [H|H] F Hg; [left; now apply P1 | right; now apply Q1] | intros [H|H] g Hg; [left; now apply P2 | right; now apply Q2]].
Qed.

Lemma grows_same P Q : same P Q -> grows Q -> grows P.
Proof. intros S [Q1 Q2]. split; [intros x g H F Hg; apply S; apply Q1; auto; now apply S | intros H g Hg; apply S, Q2; auto; now apply S]. Qed.

(** a loop at the end *)
Lemma many_grow R : grows R -> forall x g, many R x -> final x -> ogap g -> many R (x ++ g).
Proof.
  intros [H _] x g M F Hg. induction M as [|u v Hu Hv IH]; [destruct (final_nil F)|].
  destruct v as [|c v].
  - rewrite app_nil_r in *. apply many_one. now apply H.
  - rewrite <- app_assoc. apply many_more; [exact Hu|]. apply IH. now apply final_app in F.
Qed.

Lemma grows_many P R : grows P -> grows R -> grows (P ;; many R).
Proof.
  intros [P1 P2] HR. split.
  - intros x g (u & v & -> & Hu & Hv) F Hg. destruct v as [|c v].
    + rewrite app_nil_r in *. exists (u ++ g), []. rewrite app_nil_r. repeat split; [now apply P1 | constructor].
    + exists u, ((c :: v) ++ g). rewrite app_assoc. repeat split; auto. apply many_grow; auto. now apply final_app in F.
  - intros (u & v & E & Hu & Hv) g Hg. symmetry in E. apply app_eq_nil in E as [-> ->]. exists g, []. rewrite app_nil_r. repeat split; [now apply P2 | constructor].
Qed.

Lemma date_grows : grows date_texts.
Proof. unfold date_texts. do 9 apply grows_cat. exact grows_gap. Qed.

(** with the digits excluded *)
Hypothesis bad_digit : forall r, digit_char r = true -> In r bad.

Lemma digits_not_final x : many digit x -> ~ final x.
Proof.
  intros M. induction M as [|u v (r & -> & Hr) Hv IH]; [exact final_nil|]. intros F. destruct v as [|c v].
  - destruct F as (r' & y & E & N). apply N. apply bad_digit. change ([] ++ [r] = y ++ [r']) in E. apply app_inj_tail in E as [_ <-]. exact Hr.
  - apply IH. now apply final_app in F.
Qed.

Lemma grows_port : grows (ogap ;; optional (lit ":" ;; digit ;; many digit)).
Proof.
  split.
  - intros x g (u & v & -> & Hu & Hv) F Hg. destruct Hv as [->|(a & b & -> & Ha & Hb)].
    + rewrite app_nil_r in *. exists (u ++ g), []. rewrite app_nil_r. split; [reflexivity|]. split; [exact (proj1 grows_gap u g Hu F Hg) | now left].
    + exfalso. assert (Md : many digit b) by (destruct Hb as (c & d & -> & Hc & Hd); now apply many_more).
      apply (digits_not_final b Md). rewrite app_assoc in F. apply final_app in F; [exact F|]. intros ->. destruct Hb as (c & d & E & (r & -> & _) & _). discriminate.
  - intros _ g Hg. exists g, []. rewrite app_nil_r. repeat split; [exact Hg | now left].
Qed.

Lemma spec_grows : grows spec_texts.
Proof.
  apply (grows_same _ (local_texts ;; lit "@" ;; ogap ;; (dot_atom <|> lit "[" ;; literal_body ;; lit "]") ;; (ogap ;; optional (lit ":" ;; digit ;; many digit)))).
  - unfold spec_texts, domain_texts. apply cat_same; [reflexivity|]. apply cat_same; [reflexivity|]. rewrite cat_assoc. apply cat_same; [reflexivity|]. rewrite cat_assoc. reflexivity.
  - do 4 apply grows_cat. exact grows_port.
Qed.

Lemma mailbox_grows : grows mailbox_texts.
Proof. apply grows_either; [|exact spec_grows]. apply grows_cat. unfold angle_texts. do 4 apply grows_cat. exact grows_gap. Qed.

Lemma group_grows : grows group_texts.
Proof. unfold group_texts. do 7 apply grows_cat. exact grows_gap. Qed.

Lemma address_grows : grows one_address.
Proof. apply grows_either; [exact mailbox_grows | exact group_grows]. Qed.

Lemma list_grows : grows address_list_texts.
Proof.
  unfold address_list_texts. apply grows_either.
  - apply grows_many; [exact address_grows | apply grows_cat; exact address_grows].
  - apply grows_cat. apply grows_many; [exact address_grows|]. apply grows_cat, grows_either; [exact address_grows | exact grows_gap].
Qed.

End Ends.

Lemma kept_trail g s s' : ogap g -> decode s = decode s' ++ g -> kept s = kept s' ++ g.
Proof.
  intros H E. unfold kept. rewrite E, filter_app. f_equal. clear E. apply gap_bmp in H. induction H as [|r g Hr _ IH]; [reflexivity|]. cbn [filter]. rewrite Hr. now rewrite IH.
Qed.

Lemma ends_final bad s : ends_not bad (decode s) -> final bad (kept s) /\ s <> [].
Proof.
  intros (r & y & E & B & N). split.
  - unfold kept. rewrite E, filter_app. cbn [filter]. rewrite (bmp_le r B). now exists r, (filter bmp y).
  - intros ->. destruct y; discriminate E.
Qed.

Lemma lexes_trail e g s s' : ogap g -> decode s = decode s' ++ g -> (lexes e s <-> lexes e s').
Proof.
  intros Hg E. unfold lexes. rewrite E. split; intros H R; specialize (H R); [now apply Forall_app in H | apply Forall_app; split; [exact H | now apply gap_le]].
Qed.

Lemma trail_nonnil bad g s s' : decode s = decode s' ++ g -> ends_not bad (decode s') -> s <> [].
Proof. intros E (r & y & Er & _) ->. rewrite Er in E. destruct y; discriminate E. Qed.

Lemma digits_listed r : digit_char r = true -> In r (white ++ bs "0123456789").
Proof.
  intros Hr. unfold digit_char, in_range in Hr. apply andb_true_iff in Hr as [H1 H2]. apply N.leb_le in H1. apply N.leb_le in H2.
    assert (r = 48 \/ r = 49 \/ r = 50 \/ r = 51 \/ r = 52 \/ r = 53 \/ r = 54 \/ r = 55 \/ r = 56 \/ r = 57)%N as K by lia.
    change (bs "0123456789") with [48; 49; 50; 51; 52; 53; 54; 55; 56; 57]%N. apply in_or_app. right. cbn. intuition (subst; auto 12).
Qed.

(** An accepted list stays accepted when a gap is added at the end, unless it ends in white space or
    in a digit. *)
Theorem C64_trailing_gap : forall e g s s' l, ogap g -> decode s = decode s' ++ g -> ends_not (white ++ bs "0123456789") (decode s') ->
  ParseAddressList e s' = Ret l None -> exists l', ParseAddressList e s = Ret l' None.
Proof.
  intros e g s s' l Hg E F H. destruct (ends_final _ _ F) as [F' N'].
  assert (I' : exists l, ParseAddressList e s' = Ret l None) by eauto. apply (C56_accepted_address_lists e s' N') in I' as [A L].
  apply (C56_accepted_address_lists e s (trail_nonnil _ g s s' E F)). split; [|now apply (lexes_trail e g s s')].
  rewrite (kept_trail g s s' Hg E). apply (proj1 (list_grows (white ++ bs "0123456789") ltac:(split; cbn; auto) digits_listed)); assumption.
Qed.
(** No gap is allowed after a port. *)
Theorem C64_not_after_a_port : exists l, ParseAddressList env0 (bs "a@b:25") = Ret l None /\
  ParseAddressList env0 (bs "a@b:25 ") = Ret None (Some ESyntax).
Proof. eexists. split; vm_compute; reflexivity. Qed.

(** ** Dates do not end in a backslash *)
Definition last_not (c : rune) (P : texts) : Prop := forall y, ~ P (y ++ [c]).

Lemma last_cat c P Q : last_not c Q -> (~ Q [] \/ last_not c P) -> last_not c (P ;; Q).
Proof.
  intros HQ HP y (u & v & E & Hu & Hv). destruct v as [|r v _] using rev_ind.
  - rewrite app_nil_r in E. subst u. destruct HP as [HP|HP]; [contradiction | exact (HP _ Hu)].
  - rewrite app_assoc in E. apply app_inj_tail in E as [_ <-]. exact (HQ _ Hv).
Qed.

Lemma last_either c P Q : last_not c P -> last_not c Q -> last_not c (P <|> Q).
Proof. intros H1 H2 y [H|H]; [exact (H1 _ H) | exact (H2 _ H)]. Qed.

Lemma last_opt c P : last_not c P -> last_not c (optional P).
Proof. intros H y [E|K]; [now destruct y | exact (H _ K)]. Qed.

Lemma last_one c p : p c = false -> last_not c (one p).
Proof. intros H y (r & E & K). change ([r]) with ([] ++ [r]) in E. apply app_inj_tail in E as [_ <-]. congruence. Qed.

Lemma last_fold : last_not 92%N fold.
Proof. intros y H. apply (fold_not_final [32; 9]%N ltac:(cbn; auto) _ H). exists 92%N, y. split; [reflexivity|]. cbn. intuition discriminate. Qed.

Lemma last_comment : last_not 92%N comment.
Proof. intros y (b & E & _). rewrite app_assoc in E. change (bs ")") with [41%N] in E. apply app_inj_tail in E as [_ E]. discriminate. Qed.

Lemma last_comments x : comments x -> forall y, x <> y ++ [92%N].
Proof.
  intros H. induction H as [u c u' Hu Hc Hu'|u c x Hu Hc Hx IH]; intros y E.
  - destruct u' as [|r u' _] using rev_ind.
    + rewrite app_nil_r in E. destruct c as [|r c _] using rev_ind; [destruct Hc as (b & K & _); discriminate K|]. rewrite app_assoc in E. apply app_inj_tail in E as [_ ->]. exact (last_comment _ Hc).
    + rewrite !app_assoc in E. apply app_inj_tail in E as [_ ->]. destruct Hu' as [K|K]; [now destruct u' | exact (last_fold _ K)].
  - destruct x as [|r x _] using rev_ind; [destruct (comments_nonnil _ Hx eq_refl)|]. rewrite !app_assoc in E. apply app_inj_tail in E as [_ ->]. exact (IH x eq_refl).
Qed.

Lemma last_gap : last_not 92%N ogap.
Proof. intros y [H|[H|H]]; [now destruct y | exact (last_fold _ H) | exact (last_comments _ H y eq_refl)]. Qed.

Lemma last_zone : last_not 92%N (named (map fst zone_names)).
Proof.
  intros y H. unfold named in H. unfold to_lower in H. rewrite map_app in H. cbn [map] in H. change (lower_byte 92%N) with 92%N in H.
  assert (K : forallb (fun n => match rev n with [] => true | c :: _ => negb (c =? 92)%N end) (map fst zone_names) = true) by (vm_compute; reflexivity).
  rewrite forallb_forall in K. specialize (K _ H). cbv beta in K. rewrite rev_app_distr in K. discriminate K.
Qed.

Lemma date_last : last_not 92%N date_texts.
Proof.
  unfold date_texts. assert (D : last_not 92%N digit) by (apply last_one; reflexivity).
  assert (DD : last_not 92%N (ogap ;; digit ;; digit ;; ogap)).
  { apply last_cat; [|left; intros (u & v & E & (r & -> & _) & _); discriminate]. apply last_cat; [|left; intros (u & v & E & (r & -> & _) & _); discriminate]. apply last_cat; [exact last_gap | right; exact D]. }
  assert (DN : ~ (ogap ;; digit ;; digit ;; ogap) []).
  { intros (u & v & E & _ & Hv). symmetry in E. apply app_eq_nil in E as [_ ->]. destruct Hv as (a & b & E & (r & -> & _) & _). discriminate. }
  set (rest := optional (lit ":" ;; ogap ;; digit ;; digit ;; ogap) ;; _).
  assert (LR : last_not 92%N rest).
  { apply last_cat; [|right; apply last_opt, last_cat; [exact DD | left; exact DN]]. apply last_cat; [exact last_gap|]. right. apply last_opt, last_either; [|exact last_zone].
    apply last_cat; [|left; intros (u & v & E & _ & a & b & -> & (r & -> & _) & _); destruct u; discriminate].
    apply last_cat; [|left; intros (a & b & E & (r & -> & _) & _); discriminate].
    do 2 (apply last_cat; [|left; intros (a & b & E & (r & -> & _) & _); discriminate]).
    apply last_cat; [exact D | left; intros (r & E & _); discriminate]. }
  assert (MR : last_not 92%N ((ogap ;; digit ;; digit ;; ogap) ;; rest)) by (apply last_cat; [exact LR | right; exact DD]).
  assert (MN : ~ ((ogap ;; digit ;; digit ;; ogap) ;; rest) []).
  { intros (u & v & E & Hu & _). symmetry in E. apply app_eq_nil in E as [-> _]. exact (DN Hu). }
  assert (CN : ~ (lit ":" ;; (ogap ;; digit ;; digit ;; ogap) ;; rest) []) by (intros (u & v & E & -> & _); discriminate).
  assert (CR : last_not 92%N (lit ":" ;; (ogap ;; digit ;; digit ;; ogap) ;; rest)) by (apply last_cat; [exact MR | left; exact MN]).
  assert (step : forall P Q : texts, last_not 92%N Q -> ~ Q [] -> last_not 92%N (P ;; Q) /\ ~ (P ;; Q) []).
  { intros P Q H N. split; [apply last_cat; auto|]. intros (u & v & E & _ & Hv). symmetry in E. apply app_eq_nil in E as [_ ->]. exact (N Hv). }
  apply step; apply step; apply step; apply step; apply step; assumption.
Qed.

Lemma strip_trail g x : ogap g -> bmps x -> (forall y, x <> y ++ [92%N]) -> strip 0 (x ++ g) = strip 0 x.
Proof.
  intros Hg Bx Hx. destruct g as [|c g]; [now rewrite app_nil_r|].
  assert (L : lang (Nt R_cfws) (toks (c :: g))) by (apply ogap_some; [reflexivity | now apply gap_cfws | discriminate]).
  pose proof (cfws_skips _ L) as Sk.
  assert (K : forall m w n, length w <= m -> (forall u t, w = u ++ [t] -> tt t <> T_Backslash) -> tscan n (w ++ toks (c :: g)) = tscan n w).
  { induction m as [|m IH]; intros w n Hm Hw.
    - destruct w; [|cbn in Hm; lia]. cbn [app]. pose proof (Sk n []) as E. rewrite app_nil_r in E. exact E.
    - destruct w as [|t w]; [cbn [app]; pose proof (Sk n []) as E; rewrite app_nil_r in E; exact E|]. cbn [length] in Hm.
      assert (Hw' : forall u t0, w = u ++ [t0] -> tt t0 <> T_Backslash) by (intros u t0 ->; apply (Hw (t :: u)); reflexivity).
      cbn [app tscan]. destruct n as [|k]; destruct (tkind (tt t)) eqn:Kt; try (rewrite IH by (auto; lia); reflexivity).
      destruct w as [|t2 w].
      + exfalso. apply (Hw [] t eq_refl). revert Kt. unfold tkind. destruct (memb (tt t) _); [discriminate|]. destruct (tt t =? T_LParens)%N; [discriminate|]. destruct (tt t =? T_RParens)%N; [discriminate|].
        destruct (tt t =? T_Backslash)%N eqn:Eb; [|discriminate]. intros _. now apply N.eqb_eq.
      + cbn [app]. cbn [length] in Hm. apply IH; [lia|]. intros u t0 ->. apply (Hw' (t2 :: u)). reflexivity. }
  assert (Lx : Forall lexed (toks x)) by (now apply toks_lexed_bmp). assert (Lg : Forall lexed (toks (c :: g))) by (apply toks_lexed_bmp; now apply gap_bmp).
  pose proof (tscan_strip (toks x) Lx 0) as T1. pose proof (tscan_strip (toks x ++ toks (c :: g)) (proj2 (Forall_app _ _ _) (conj Lx Lg)) 0) as T2.
  rewrite map_app, !tr_toks in T2. rewrite tr_toks in T1. rewrite <- T1, <- T2. f_equal. apply (K (length (toks x))); [lia|].
  intros u t E Et. destruct x as [|r x _] using rev_ind; [destruct u; discriminate E|]. rewrite toks_app in E. change (toks [r]) with [tok_of r] in E. apply app_inj_tail in E as [_ <-].
  apply (Hx x). f_equal. f_equal. rewrite toks_app in Lx. apply Forall_app in Lx as [_ Lx]. apply Forall_inv in Lx.
  assert (X : tr (tok_of r) = 92%N) by (apply (tok_char T_Backslash 92%N); [vm_compute; reflexivity | reflexivity | discriminate | exact Lx | exact Et]). exact X.
Qed.

(** A gap after a date that does not end in white space. *)
Theorem C64_trailing_gap_dates : forall e g s s' t, ogap g -> decode s = decode s' ++ g -> ends_not white (decode s') ->
  ParseDateTime e s' = Ret t None -> ParseDateTime e s = Ret t None.
Proof.
  intros e g s s' t Hg E F H. destruct (ends_final _ _ F) as [F' N']. pose proof (trail_nonnil _ g s s' E F) as N.
  assert (I' : exists t, ParseDateTime e s' = Ret t None) by eauto. apply (C57_accepted_dates e s' N') in I' as [A L].
  assert (I : exists t, ParseDateTime e s = Ret t None).
  { apply (C57_accepted_dates e s N). split; [|now apply (lexes_trail e g s s')]. rewrite (kept_trail g s s' Hg E). apply (proj1 (date_grows white ltac:(split; cbn; auto))); assumption. }
  destruct I as [t' I]. rewrite I. f_equal. symmetry. apply (proj1 (proj2 (proj2 C34_read_from_stripped_text)) e s' s); auto.
  rewrite !strip_kept, (kept_trail g s s' Hg E). symmetry. apply strip_trail; [exact Hg | apply kept_bmp|]. intros y Ey. rewrite Ey in A. exact (date_last y A).
Qed.

Example C64_met : ogap (bs "(a\(b) ") /\ begins_not (34%N :: opening) (decode (bs "x <y@z>")) /\
  ends_not (white ++ bs "0123456789") (decode (bs "x <y@z>")) /\ ends_not white (decode (bs "1 Jan 97 2:03")) /\ begins_not opening (decode (bs "1 Jan 97 2:03")) /\
  ParseAddressList env0 (bs "(a\(b) x <y@z>") = Ret (Some [mkAddr (bs "x") (bs "y@z")]) None.
Proof.
  split; [|split; [|split; [|split; [|split]]]].
  - right; right. apply (cs_one [] (bs "(a\(b)") (bs " ")); [now left| |right; apply fold_plain; [discriminate | repeat constructor]].
    exists (bs "a\(b"). split; [reflexivity|]. apply (cb_char [] 97%N (bs "\(b")); [now left | reflexivity|]. apply (cb_pair [] 40%N (bs "b")); [now left | reflexivity|].
    apply (cb_char [] 98%N []); [now left | reflexivity|]. apply cb_end. now left.
  - exists 120%N, (bs " <y@z>"). split; [vm_compute; reflexivity|]. split; [vm_compute; discriminate|]. vm_compute. intuition discriminate.
  - exists 62%N, (bs "x <y@z"). split; [vm_compute; reflexivity|]. split; [vm_compute; discriminate|]. vm_compute. intuition discriminate.
  - exists 51%N, (bs "1 Jan 97 2:0"). split; [vm_compute; reflexivity|]. split; [vm_compute; discriminate|]. vm_compute. intuition discriminate.
  - exists 49%N, (bs " Jan 97 2:03"). split; [vm_compute; reflexivity|]. split; [vm_compute; discriminate|]. vm_compute. intuition discriminate.
  - vm_compute. reflexivity.
Qed.

Print Assumptions C64_leading_gap.
