(** The texts of AcceptText.v are texts of RFC 5322 with the extensions of Rfc5322.v. *)
From Coq Require Import String List NArith ZArith Bool Arith Lia Setoid Morphisms.
From Verif Require Import Lexer Grammar Utf8 Strs Mime GoTime Parser Walker Api Spec ParserFacts
  WalkerFacts Static Total Cfws LangFacts LexFacts Utf8Facts First DateSpec AddrSpec Chosen AddrSem CharFacts PropApi PropInv
  ScanSpec ScanFacts ScanWords ScanAddr AddrText MboxList TextLang EncText EncConv PropStable DateAccept AcceptText AcceptFacts PropAccept Rfc5322 RfcFacts RfcSyntax.
Import ListNotations.
Local Open Scope text_scope.

Lemma one_or p q : within (one (fun r => p r || q r)) (one p <|> one q).
Proof. intros x (r & -> & H). apply orb_true_iff in H as [H|H]; [left | right]; exists r; auto. Qed.

Lemma one_split (q p : rune -> bool) : forallb (fun r => implb (q r) (p r)) (map N.of_nat (seq 0 128)) = true -> (forall r, q r = true -> (r <= 65535)%N) ->
  within (one q) (one p <|> one (in_range 128%N 65535%N)).
Proof.
  intros F B x (r & -> & H). destruct (N.leb_spec 128 r) as [L|L].
  - right. exists r. split; [reflexivity|]. apply in_range_spec. split; [exact L | exact (B r H)].
  - left. exists r. split; [reflexivity|]. rewrite forallb_forall in F. assert (I : In r (map N.of_nat (seq 0 128))) by (apply in_map_iff; exists (N.to_nat r); split; [lia | apply in_seq; lia]).
    specialize (F r I). now rewrite H in F.
Qed.

Section back.
  Variable on : form -> Prop.
  Hypothesis has : forall f, ~ In f [O_FWS; O_domain; O_dtext; U_high_characters; Long_year; O_long_obs_year; O_military] -> on f.

  Ltac on_ := apply has; cbn; intuition discriminate.

  Lemma may_has f P : on f -> within P (may on f P).
  Proof. intros H x X. split; [exact H | exact X]. Qed.

  Lemma may_right f P Q : on f -> within P (Q <|> may on f P).
  Proof. intros H. apply into_right. now apply may_has. Qed.

  (** ** Characters *)
  Lemma high_back : within (one (in_range 128%N 65535%N)) (utf8_non_ascii on).
  Proof. apply into_left, may_has. on_. Qed.

  Definition ctl (r : rune) : bool := in_range 1%N 8%N r || ((11 =? r)%N || ((12 =? r)%N || (in_range 14%N 31%N r || (127 =? r)%N))).

  Lemma ctl_back : within (one ctl) obs_NO_WS_CTL.
  Proof. unfold ctl, obs_NO_WS_CTL. intros x H. apply one_or in H as [H|H]; [now left|]. right. apply one_or in H as [H|H]; [now left|]. right. apply one_or in H as [H|H]; [now left|]. right. now apply one_or in H. Qed.

  Ltac bmp_ f := let r := fresh "r" in let H := fresh in intros r H; unfold f in H; rewrite ?andb_true_iff, ?orb_true_iff, ?in_range_spec in H; try lia.

  Lemma ctext_back : within (one comment_char) (ctext on).
  Proof.
    eapply within_trans; [apply (one_split _ (fun r => in_range 33%N 39%N r || (in_range 42%N 91%N r || (in_range 93%N 126%N r || ctl r)))%N); [vm_compute; reflexivity|]|].
    - intros r H. unfold comment_char, ctl_char in H. rewrite ?andb_true_iff, ?orb_true_iff, ?in_range_spec, ?andb_true_iff, ?orb_true_iff, ?in_range_spec, ?N.eqb_eq in H. lia.
    - apply either_within; [|apply into_right, into_right, into_right, into_left, high_back].
      intros x H. apply one_or in H as [H|H]; [now left|]. apply one_or in H as [H|H]; [right; now left|]. apply one_or in H as [H|H]; [right; right; now left|]. right; right; right; right. split; [on_ | now apply ctl_back].
  Qed.

  Lemma qtext_back : within (one quoted_char) (qtext on).
  Proof.
    eapply within_trans; [apply (one_split _ (fun r => (33 =? r)%N || (in_range 35%N 91%N r || (in_range 93%N 126%N r || ctl r)))%N); [vm_compute; reflexivity|]|].
    - intros r H. unfold quoted_char, ctl_char in H. rewrite ?andb_true_iff, ?orb_true_iff, ?in_range_spec, ?andb_true_iff, ?orb_true_iff, ?in_range_spec, ?N.eqb_eq in H. lia.
    - apply either_within; [|apply into_right, into_right, into_right, into_left, high_back].
      intros x H. apply one_or in H as [H|H]; [now left|]. apply one_or in H as [H|H]; [right; now left|]. apply one_or in H as [H|H]; [right; right; now left|]. right; right; right; right. split; [on_ | now apply ctl_back].
  Qed.

  Lemma dtext_back : within (one dtext) (rfc_dtext on).
  Proof.
    eapply within_trans; [apply (one_split _ (fun r => in_range 33%N 90%N r || in_range 94%N 126%N r)%N); [vm_compute; reflexivity|]|].
    - intros r H. unfold dtext in H. rewrite ?andb_true_iff, ?orb_true_iff, ?in_range_spec in H. lia.
    - apply either_within; [|apply into_right, into_right, into_left, high_back]. intros x H. apply one_or in H as [H|H]; [now left|]. right. now left.
  Qed.

  Lemma atext_back : within (one atext_char) (atext on).
  Proof.
    eapply within_trans; [apply (one_split _ (fun r => (in_range 65%N 90%N r || in_range 97%N 122%N r) || (in_range 48%N 57%N r || existsb (N.eqb r) (bs "!#$%&'*+-/=?^_`{|}~")))%N); [vm_compute; reflexivity|]|].
    - intros r H. unfold atext_char in H. rewrite ?orb_true_iff, ?in_range_spec in H. destruct H as [H|H]; [lia|]. apply existsb_exists in H as (c & I & E). apply N.eqb_eq in E. subst c. cbn in I. repeat (destruct I as [<-|I]; [lia|]). destruct I.
    - apply either_within; [|apply into_right, into_right, into_right, high_back]. intros x H. apply one_or in H as [H|H]; [left; now apply one_or|]. apply one_or in H as [H|H]; [right; now left|]. right. right. now left.
  Qed.

  Lemma pair_back : within pair_texts (quoted_pair on).
  Proof.
    intros x (r & -> & H). apply N.leb_le in H.
    assert (ONE : forall p : rune -> bool, p r = true -> one p [r]) by (intros p P; exists r; auto).
    assert (PL : (VCHAR on <|> WSP) [r] -> quoted_pair on [92%N; r]) by (intros K; left; exists (bs "\"), [r]; split; [reflexivity | split; [reflexivity | exact K]]).
    assert (OB : (one (N.eqb 0) <|> obs_NO_WS_CTL <|> one (N.eqb 10) <|> one (N.eqb 13)) [r] -> quoted_pair on [92%N; r]) by (intros K; right; split; [on_ | exists (bs "\"), [r]; split; [reflexivity | split; [reflexivity | exact K]]]).
    destruct (N.leb_spec 128 r) as [L|L]; [apply PL; left; right; apply high_back, ONE, in_range_spec; lia|].
    destruct (N.leb_spec 33 r) as [L1|L1].
    - destruct (N.eq_dec r 127) as [->|N]; [apply OB; right; left; apply ctl_back, ONE; reflexivity | apply PL; left; left; apply ONE, in_range_spec; lia].
    - assert (E : (r = 32 \/ r = 9 \/ r = 0 \/ r = 10 \/ r = 13 \/ ctl r = true)%N).
      { assert (I : In r (map N.of_nat (seq 0 33))) by (apply in_map_iff; exists (N.to_nat r); split; [lia | apply in_seq; lia]). cbn in I. repeat (destruct I as [<-|I]; [repeat ((left; reflexivity) || right); reflexivity|]). destruct I. }
      destruct E as [->|[->|[->|[->|[->|E]]]]]; [apply PL; right; now left | apply PL; right; now right | apply OB; left; now apply ONE | apply OB; right; right; left; now apply ONE | apply OB; right; right; right; now apply ONE | apply OB; right; left; now apply ctl_back, ONE].
  Qed.

  Lemma digit_back : within digit DIGIT.
  Proof. apply one_within. auto. Qed.

  (** ** White space and comments *)
  Lemma blank_back r : blank_char r = true -> WSP [r].
  Proof. intros H. apply orb_true_iff in H as [H|H]; apply N.eqb_eq in H; subst r; [now left | now right]. Qed.

  Lemma blanks_back x : blanks x -> many WSP x.
  Proof. induction 1 as [|r x R H IH]; [constructor|]. apply (many_more WSP [r] x); [now apply blank_back | exact IH]. Qed.

  Lemma some_blanks_back x : x <> [] -> blanks x -> some WSP x.
  Proof. intros N B. revert N. destruct B as [|r y R H]; intros N; [congruence|]. apply (some_i WSP [r] y); [now apply blank_back | now apply blanks_back]. Qed.

  Lemma fold_back : within fold (FWS on).
  Proof.
    intros x [a N B|a b A N B]; left.
    - exists [], a. split; [reflexivity|]. split; [now left | now apply some_blanks_back].
    - rewrite app_assoc. apply cat_i; [right; apply cat_i; [now apply blanks_back | reflexivity] | now apply some_blanks_back].
  Qed.

  Lemma ofold_back : within (optional fold) (optional (FWS on)).
  Proof. apply optional_mono, fold_back. Qed.

  Lemma comment_body_back b : comment_body b -> exists x u, b = x ++ u /\ ccontents on x /\ optional (FWS on) u.
  Proof.
    induction 1 as [u U|u r b U R B (x & w & -> & X & W)|u r b U R B (x & w & -> & X & W)|u c b U C (xc & wc & -> & XC & WC) B (x & w & -> & X & W)].
    - exists [], u. split; [reflexivity|]. split; [constructor | now apply ofold_back].
    - exists (u ++ [r] ++ x), w. split; [now rewrite <- !app_assoc|]. split; [|exact W]. apply c_more; [now apply ofold_back | apply c_text, ctext_back; exists r; auto | exact X].
    - exists (u ++ [92%N; r] ++ x), w. split; [now rewrite <- !app_assoc|]. split; [|exact W]. apply c_more; [now apply ofold_back | apply c_pair, pair_back; exists r; auto | exact X].
    - exists (u ++ (bs "(" ++ (xc ++ wc) ++ bs ")") ++ x), w. split; [now rewrite <- !app_assoc|]. split; [|exact W]. apply c_more; [now apply ofold_back | apply c_nested | exact X].
      rewrite <- (app_assoc xc). now apply c_comment.
  Qed.

  Lemma comment_back : within comment (rfc_comment on).
  Proof. intros x (b & -> & B). destruct (comment_body_back b B) as (y & u & -> & Y & U). rewrite <- (app_assoc y). now apply c_comment. Qed.

  Lemma cfws_back : within (comments <|> fold) (CFWS on).
  Proof.
    apply either_mono; [|exact fold_back]. eapply within_trans; [apply same_sub, comments_many|]. eapply within_trans; [|apply same_sup, cat_assoc].
    assert (K : within (optional fold ;; comment) (optional (FWS on) ;; rfc_comment on)) by (apply cat_mono; [exact ofold_back | exact comment_back]).
    apply cat_mono; [exact K|]. apply cat_mono; [now apply many_mono | exact ofold_back].
  Qed.

  Lemma gap_back : within ogap (optional (CFWS on)).
  Proof. intros x [->|[H|H]]; [now left | right; apply cfws_back; now right | right; apply cfws_back; now left]. Qed.

  Lemma gapped_back P Q : within P Q -> within (ogap ;; P ;; ogap) (optional (CFWS on) ;; Q ;; optional (CFWS on)).
  Proof. intros H. apply cat_mono; [exact gap_back|]. apply cat_mono; [exact H | exact gap_back]. Qed.

  (** ** Words *)
  Lemma atom_back : within atom (some (atext on)).
  Proof. eapply within_trans; [apply same_sub, atom_many|]. apply some_mono, atext_back. Qed.

  Lemma dot_back : within dot_atom (dot_atom_text on).
  Proof.
    assert (K : forall l, l <> [] -> Forall atom l -> exists u v, join (bs ".") l = u ++ v /\ some (atext on) u /\ many (lit "." ;; some (atext on)) v).
    { induction l as [|a l IH]; intros N F; [congruence|]. inversion F as [|? ? A F']; subst. apply atom_back in A. destruct l as [|b l].
      - exists a, []. split; [symmetry; apply app_nil_r|]. split; [exact A | constructor].
      - destruct (IH ltac:(discriminate) F') as (u & v & E & U & V). exists a, ((bs "." ++ u) ++ v). split; [change (join (bs ".") (a :: b :: l)) with (a ++ bs "." ++ join (bs ".") (b :: l)); now rewrite E, <- !app_assoc|].
        split; [exact A|]. constructor; [now apply cat_lit | exact V]. }
    intros x (l & N & F & H). destruct (K l N F) as (u & v & E & U & V). destruct H as [->| ->]; rewrite E.
    - apply cat_i; [exact U|]. apply cat_nil_r; [exact V | now left].
    - rewrite <- app_assoc. apply cat_i; [exact U|]. apply cat_i; [exact V|]. right. split; [on_ | reflexivity].
  Qed.

  Lemma quoted_back : within quoted_string (DQUOTE ;; many (optional (FWS on) ;; qcontent on) ;; optional (FWS on) ;; DQUOTE).
  Proof.
    eapply within_trans; [apply same_sup, cl_quoted|]. eapply within_trans; [apply same_sub, cl_quoted_parts|].
    apply cat_mono; [apply within_refl|]. apply cat_mono; [|apply cat_mono; [exact ofold_back | apply within_refl]]. apply many_mono. apply cat_mono; [exact ofold_back|].
    apply either_mono; [exact qtext_back | exact pair_back].
  Qed.

  Lemma quoted_string_back : within (ogap ;; quoted_string ;; ogap) (rfc_quoted_string on).
  Proof.
    unfold rfc_quoted_string. apply cat_mono; [exact gap_back|]. intros x H.
    assert (E : ((DQUOTE ;; many (optional (FWS on) ;; qcontent on) ;; optional (FWS on) ;; DQUOTE) ;; optional (CFWS on)) x) by (revert x H; apply cat_mono; [exact quoted_back | exact gap_back]).
    eapply same_sub; [|exact E]. rewrite !cat_assoc. reflexivity.
  Qed.

  Lemma word_back : within word_texts (rfc_word on).
  Proof.
    apply either_mono; [apply gapped_back, atom_back|]. apply either_mono; [exact quoted_string_back|]. eapply within_trans; [|apply may_has; on_]. apply some_mono, gapped_back, within_refl.
  Qed.

  Lemma start_back : within name_start (rfc_word on).
  Proof.
    intros x H. apply word_back. destruct H as [H|[H|H]]; [left | right; left | right; right].
    - apply no_gaps. apply atom_many. exact (cat_nil_r _ _ _ H (many_none _)).
    - now apply no_gaps.
    - apply cat_nil_r; [now apply no_gaps | constructor].
  Qed.

  Lemma gap_start_back : within (ogap ;; name_start) (rfc_word on).
  Proof.
    intros x (g & y & -> & G & Y). apply word_back. assert (NG : forall P : texts, P y -> (ogap ;; P ;; ogap) (g ++ y)) by (intros P H; apply cat_i; [exact G | apply cat_nil_r; [exact H | exact ogap_nil]]). destruct Y as [Y|[Y|Y]]; [left | right; left | right; right].
    - apply NG, atom_many. exact (cat_nil_r _ _ _ Y (many_none _)).
    - now apply NG.
    - apply cat_nil_r; [now apply NG | constructor].
  Qed.

  Lemma name_back : within name_texts (phrase on).
  Proof.
    intros x H. right. split; [on_|]. unfold name_texts in H. apply (same_sup _ _ (cat_assoc _ _ _)) in H. revert x H. apply cat_mono; [exact gap_start_back|]. apply many_mono.
    intros x [H|[H|[H|[H|H]]]]; [left; now apply start_back | right; now left | right; right; right; split; [on_ | exact H] | right; right; left; apply cfws_back; now right | right; right; left; apply cfws_back; left].
    assert (K : comments ([] ++ x ++ [])) by (apply cs_one; [now left | exact H | now left]). cbn [app] in K. now rewrite app_nil_r in K.
  Qed.

  (** ** Addresses *)
  Lemma local_back : within local_texts (local_part on).
  Proof.
    apply either_within; [apply into_left, gapped_back, dot_back|]. eapply within_trans; [|apply into_right, may_right; on_]. apply cat_mono; [exact word_back|]. apply many_mono.
    apply cat_mono; [apply within_refl | exact word_back].
  Qed.

  Lemma domain_back : within domain_texts (domain on).
  Proof.
    intros x (g & y & -> & G & d & g' & -> & [D|D] & G').
    - left. apply gapped_back with (P := dot_atom); [exact dot_back|]. apply cat_i; [exact G | now apply cat_i].
    - right. left. destruct D as (q & z & -> & Q & b & q' & -> & B & Q'). unfold lit in Q, Q'. subst q q'. apply literal_many in B. destruct B as (m & u & -> & M & U). apply cat_i; [now apply gap_back|].
      assert (E : bs "[" ++ m ++ u ++ bs "]" ++ g' = (bs "[" ++ (m ++ u) ++ bs "]") ++ g') by (now rewrite <- !app_assoc). refine (eq_ind _ (fun z => (lit "[" ;; many (optional (FWS on) ;; rfc_dtext on) ;; optional (FWS on) ;; lit "]" ;; optional (CFWS on)) z) _ _ E).
      apply cat_lit. apply cat_i; [|apply cat_i; [now apply ofold_back | apply cat_lit; now apply gap_back]]. revert M. apply many_mono, cat_mono; [exact ofold_back | exact dtext_back].
  Qed.

  Lemma spec_back : within spec_texts (addr_spec on).
  Proof.
    apply cat_mono; [exact local_back|]. apply cat_mono; [apply within_refl|]. apply cat_mono; [exact domain_back|]. apply optional_mono. eapply within_trans; [|apply may_has; on_].
    apply cat_mono; [apply within_refl | apply some_mono, digit_back].
  Qed.

  Lemma route_back : within route_texts (obs_route on).
  Proof.
    unfold obs_route, obs_domain_list, route_texts. eapply within_trans; [|apply same_sup, cat_assoc]. apply cat_mono.
    - apply many_mono. intros x [H|[H|H]]; [left; apply cfws_back; now right | left; apply cfws_back; left | now right].
      assert (K : comments ([] ++ x ++ [])) by (apply cs_one; [now left | exact H | now left]). cbn [app] in K. now rewrite app_nil_r in K.
    - eapply within_trans; [|apply same_sup, cat_assoc]. apply cat_mono; [apply within_refl|]. eapply within_trans; [|apply same_sup, cat_assoc]. apply cat_mono; [exact domain_back|].
      apply cat_mono; [|apply within_refl]. apply many_mono. apply cat_mono; [apply within_refl|]. apply cat_mono; [exact gap_back|]. apply optional_mono. apply cat_mono; [apply within_refl | exact domain_back].
  Qed.

  Lemma angle_back : within angle_texts (angle_addr on).
  Proof.
    intros x (g & y & -> & G & q & z & -> & Q & m & w & -> & M & q' & g' & -> & Q' & G'). apply gap_back in G, G'. unfold lit in Q, Q'. subst q q'. destruct M as [[->|M]|(r & s & -> & R & S)].
    - right. right. split; [on_|]. apply cat_i; [exact G|]. apply cat_lit. now apply cat_lit.
    - left. apply cat_i; [exact G|]. apply cat_lit. apply cat_i; [now apply spec_back | now apply cat_lit].
    - right. left. split; [on_|]. apply cat_i; [exact G|]. apply cat_lit. rewrite <- app_assoc. apply cat_i; [now apply route_back|]. apply cat_i; [now apply spec_back | now apply cat_lit].
  Qed.

  Lemma mailbox_back : within mailbox_texts (mailbox on).
  Proof. apply either_mono; [|exact spec_back]. apply cat_mono; [apply optional_mono; exact name_back | exact angle_back]. Qed.

  Lemma entries_back P Q : within P Q ->
    within (many (ogap ;; lit ",") ;; P ;; many (lit "," ;; (P <|> ogap))) (many (optional (CFWS on) ;; lit ",") ;; Q ;; many (lit "," ;; optional (Q <|> CFWS on))).
  Proof.
    intros H. apply cat_mono; [apply many_mono, cat_mono; [exact gap_back | apply within_refl]|]. apply cat_mono; [exact H|]. apply many_mono. apply cat_mono; [apply within_refl|].
    eapply within_trans; [apply same_sup, opt_entry|]. apply optional_mono. apply either_mono; [exact H | exact cfws_back].
  Qed.

  Lemma members_back : within (entries mailbox_texts) (optional (group_list on)).
  Proof.
    eapply within_trans; [apply same_sub, entries_split|]. apply either_within.
    - eapply within_trans; [apply same_sub, gaps_junk|]. intros x (c & g & -> & C & G). apply gap_back in G. destruct C as [|u c U C].
      + destruct G as [->|G]; [now left | right; right; now left].
      + assert (K : within (ogap ;; lit ",") (optional (CFWS on) ;; lit ",")) by (apply cat_mono; [exact gap_back | apply within_refl]).
        right. right. right. split; [on_|]. apply cat_i; [|exact G]. apply some_i; [now apply K | now apply (many_mono _ _ K)].
    - intros x H. right. left. right. split; [on_|]. revert x H. apply entries_back. exact mailbox_back.
  Qed.

  Lemma group_back : within group_texts (group on).
  Proof.
    apply cat_mono; [apply optional_mono, may_has; on_|]. apply cat_mono; [exact name_back|]. apply cat_mono; [apply within_refl|].
    eapply within_trans; [|apply cat_mono; [exact members_back | apply within_refl]]. unfold entries. eapply within_trans; [|apply same_sup, cat_assoc].
    apply cat_mono; [apply within_refl|]. apply cat_mono; [apply within_refl|]. apply cat_mono; [apply optional_mono, may_has; on_|]. apply cat_mono; [|exact gap_back].
    intros x [->|H]; [right; split; [on_ | reflexivity] | now left].
  Qed.

  Lemma address_back : within one_address (address on).
  Proof. apply either_mono; [exact mailbox_back | exact group_back]. Qed.

  Lemma address_list_back : within address_list_texts (address_list on).
  Proof.
    apply either_within.
    - apply into_right, into_right. eapply within_trans; [|apply may_has; on_]. apply cat_mono; [exact address_back|]. apply many_mono. apply cat_mono; [apply within_refl | exact address_back].
    - apply into_right, into_left. eapply within_trans; [|apply may_has; on_]. apply entries_back. exact address_back.
  Qed.

  (** ** Dates *)
  Lemma two_core f : on f -> within (ogap ;; digit ;; digit ;; ogap) (may on f (optional (CFWS on) ;; two DIGIT ;; optional (CFWS on))).
  Proof.
    intros F. eapply within_trans; [|apply may_has, F]. apply cat_mono; [exact gap_back|]. eapply within_trans; [|apply same_sup, cat_assoc]. apply cat_mono; [exact digit_back|]. apply cat_mono; [exact digit_back | exact gap_back].
  Qed.

  Lemma four_back P Q : within P Q -> within (digit ;; digit ;; digit ;; digit ;; P) (four DIGIT ;; Q).
  Proof. intros H. unfold four. intros x X. eapply same_sup; [rewrite !cat_assoc; reflexivity|]. revert x X. repeat (apply cat_mono; [exact digit_back|]). exact H. Qed.

  Lemma date_time_back : within date_texts (rfc_date_time on).
  Proof.
    intros x H.
    assert (E : (optional (day_of_week on ;; lit ",") ;; rfc_day on ;; rfc_month ;; rfc_year on ;; rfc_hour on ;; lit ":" ;; rfc_minute on ;; optional (lit ":" ;; rfc_second on) ;; rfc_zone on ;; optional (CFWS on)) x).
    2: { eapply same_sub; [|exact E]. unfold rfc_date_time, time_of_day. rewrite !cat_assoc. reflexivity. }
    revert x H. apply cat_mono.
    { apply optional_mono. intros x H. assert (E : ((ogap ;; named day_names ;; ogap) ;; lit ",") x) by (eapply same_sub; [|exact H]; rewrite !cat_assoc; reflexivity).
      revert x E H. intros x E _. revert x E. apply cat_mono; [|apply within_refl]. eapply within_trans; [|apply may_right; on_]. apply gapped_back, within_refl. }
    apply cat_mono.
    { eapply within_trans; [|apply may_right; on_]. apply cat_mono; [exact gap_back|]. eapply within_trans; [|apply same_sup, cat_assoc]. apply cat_mono; [exact digit_back|]. apply cat_mono; [apply optional_mono, digit_back | exact gap_back]. }
    apply cat_mono; [apply within_refl|]. apply cat_mono.
    { apply either_within; [apply into_left | apply into_right, into_right, into_left].
      - apply cat_mono; [exact fold_back|]. apply four_back, fold_back.
      - apply two_core. on_. }
    apply cat_mono.
    { intros x (g & y & -> & G & o & z & -> & O & D). destruct O as [->|O].
      - right. right. split; [on_|]. apply cat_i; [now apply gap_back|]. revert z D. apply cat_mono; [exact digit_back | exact gap_back].
      - right. left. apply two_core; [on_|]. apply cat_i; [exact G | now apply cat_i]. }
    apply cat_mono; [apply within_refl|]. apply cat_mono; [apply into_right, two_core; on_|].
    apply cat_mono; [apply optional_mono, cat_mono; [apply within_refl | apply into_right, two_core; on_]|].
    apply cat_mono; [|exact gap_back].
    intros x [->|[(f & y & -> & F & s & d & -> & S & D)|H]].
    - do 5 right. split; [on_ | reflexivity].
    - apply fold_back in F. assert (D4 : four DIGIT d) by (revert d D; repeat (apply cat_mono; [exact digit_back|]); exact digit_back). destruct S as [->|S].
      + do 3 right. left. split; [on_ | now apply cat_i].
      + left. apply cat_i; [exact F | now apply cat_i].
    - change (In (to_lower x) (map fst zone_names)) in H.
      assert (U : to_lower x = bs "utc" \/ In (to_lower x) [bs "ut"; bs "gmt"; bs "est"; bs "edt"; bs "cst"; bs "cdt"; bs "mst"; bs "mdt"; bs "pst"; bs "pdt"]) by (cbn [zone_names map fst In] in *; intuition).
      destruct U as [U|U]; [do 4 right; left; split; [on_ | left; now symmetry] | right; left; split; [on_ | exact U]].
  Qed.
End back.
