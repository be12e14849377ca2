(** The rules of RFC 5322 against the texts of AcceptText.v. *)
From Coq Require Import String List NArith ZArith Bool Arith Lia Setoid Morphisms.
From Verif Require Import Lexer Grammar Utf8 Strs Mime GoTime Parser Walker Api Spec ParserFacts
  WalkerFacts Static Total Cfws LangFacts LexFacts Utf8Facts First DateSpec AddrSpec Chosen AddrSem CharFacts PropApi PropInv
  ScanSpec ScanFacts ScanWords ScanAddr AddrText MboxList TextLang EncText EncConv PropStable DateAccept AcceptText AcceptFacts PropAccept Rfc5322.
Import ListNotations.
Local Open Scope text_scope.

(** ** Sets of texts *)
Lemma either_within P Q R : within P R -> within Q R -> within (P <|> Q) R.
Proof. intros H K x [A|A]; auto. Qed.

Lemma into_left P Q R : within P Q -> within P (Q <|> R).
Proof. intros H x A. left. auto. Qed.

Lemma into_right P Q R : within P R -> within P (Q <|> R).
Proof. intros H x A. right. auto. Qed.

Lemma one_within p q : (forall r, p r = true -> q r = true) -> within (one p) (one q).
Proof. intros H x (r & -> & A). exists r. auto. Qed.

Lemma lit_one c q : q c = true -> within (fun x => x = [c]) (one q).
Proof. intros H x ->. exists c. auto. Qed.

Lemma some_mono P Q : within P Q -> within (some P) (some Q).
Proof. intros H. apply cat_mono; [exact H | now apply many_mono]. Qed.

Lemma optional_within (P Q : texts) : Q [] -> within P Q -> within (optional P) Q.
Proof. intros N H x [->|A]; auto. Qed.

Lemma in_range_spec a b r : in_range a b r = true <-> (a <= r <= b)%N.
Proof. unfold in_range. rewrite andb_true_iff, !N.leb_le. tauto. Qed.

Section accepted.
  Variable on : form -> Prop.
  Hypothesis no_fws : ~ on O_FWS.
  Hypothesis no_high : ~ on U_high_characters.

  Lemma may_no f P Q : ~ on f -> within (may on f P) Q.
  Proof. intros H x [A _]. contradiction. Qed.

  Lemma may_in f P Q : within P Q -> within (may on f P) Q.
  Proof. intros H x [_ A]. auto. Qed.

  (** ** Characters *)
  Lemma range_in (q : rune -> bool) a n : forallb q (map (fun k => (a + N.of_nat k)%N) (seq 0 (S n))) = true ->
    forall r, in_range a (a + N.of_nat n)%N r = true -> q r = true.
  Proof.
    intros H r R. apply in_range_spec in R. rewrite forallb_forall in H. apply H. apply in_map_iff. exists (N.to_nat (r - a)). split; [lia|]. apply in_seq. lia.
  Qed.

  Lemma one_range (q : rune -> bool) a b n : b = (a + N.of_nat n)%N -> forallb q (map (fun k => (a + N.of_nat k)%N) (seq 0 (S n))) = true -> within (one (in_range a b)) (one q).
  Proof. intros -> H. apply one_within. now apply range_in. Qed.

  Lemma one_eq (q : rune -> bool) c : q c = true -> within (one (N.eqb c)) (one q).
  Proof. intros H. apply one_within. intros r E. apply N.eqb_eq in E. now subst. Qed.

  Lemma one_list (q : rune -> bool) l : forallb q l = true -> within (one (fun r => existsb (N.eqb r) l)) (one q).
  Proof. intros H. apply one_within. intros r E. apply existsb_exists in E as (c & I & E). apply N.eqb_eq in E. subst c. rewrite forallb_forall in H. auto. Qed.

  Lemma non_ascii_within q : (forall r, in_range 128%N 65535%N r = true -> q r = true) -> within (utf8_non_ascii on) (one q).
  Proof. intros H. apply either_within; [apply may_in, one_within, H | now apply may_no]. Qed.

  Ltac range := match goal with |- within (one (in_range ?a ?b)) _ =>
    let n := eval vm_compute in (N.to_nat (b - a)) in apply (one_range _ a b n); [reflexivity | vm_compute; reflexivity] end.
  Ltac high := let r := fresh in let R := fresh in intros r R;
    match goal with |- ?f _ = true => unfold f | _ => idtac end; rewrite ?R, ?orb_true_r, ?existsb_hi by (apply in_range_spec in R; (lia || reflexivity)); cbn [negb andb]; rewrite ?orb_true_r; try reflexivity.

  Ltac chars := repeat first
    [ apply non_ascii_within; high | apply either_within | range | apply one_eq; vm_compute; reflexivity | apply one_list; vm_compute; reflexivity | apply may_in ].

  Lemma ctext_in : within (ctext on) (one comment_char).
  Proof. unfold ctext, obs_NO_WS_CTL. chars. Qed.

  Lemma qtext_in : within (qtext on) (one quoted_char).
  Proof. unfold qtext, obs_NO_WS_CTL. chars. Qed.

  Lemma dtext_in : ~ on O_dtext -> within (rfc_dtext on) (one dtext).
  Proof. intros H. unfold rfc_dtext. repeat first [apply non_ascii_within; high | range | apply either_within]. now apply may_no. Qed.

  Lemma atext_in : within (atext on) (one atext_char).
  Proof. unfold atext, ALPHA, DIGIT. chars. Qed.

  Lemma pair_in : within (quoted_pair on) pair_texts.
  Proof.
    assert (P : forall Q, within Q (one pair_char) -> within (lit "\" ;; Q) pair_texts).
    { intros Q H x (u & v & -> & -> & A). destruct (H _ A) as (r & -> & R). exists r. auto. }
    unfold quoted_pair, obs_qp, VCHAR, WSP, obs_NO_WS_CTL. apply either_within; [|apply may_in]; apply P; chars; first [apply lit_one; reflexivity | apply in_range_spec in H0; apply N.leb_le; lia].
  Qed.

  Lemma digit_in : within DIGIT digit.
  Proof. apply within_refl. Qed.

  (** ** White space and comments *)
  Lemma wsp_in x : WSP x -> exists r, x = [r] /\ blank_char r = true.
  Proof. intros [->| ->]; eexists; split; reflexivity. Qed.

  Lemma wsps_in x : many WSP x -> blanks x.
  Proof. intros H. induction H as [|u v A H IH]; [constructor|]. apply wsp_in in A as (r & -> & B). constructor; auto. Qed.

  Lemma fws_in : within (FWS on) fold.
  Proof.
    intros x [H|[H _]]; [|contradiction]. destruct H as (u & v & -> & H & (a & b & -> & A & B)). apply wsp_in in A as (r & -> & A). apply wsps_in in B.
    assert (BL : blanks ([r] ++ b)) by (constructor; auto). destruct H as [->|(p & q & -> & P & ->)].
    - apply fold_plain; [discriminate | exact BL].
    - rewrite <- app_assoc. apply fold_line; [now apply wsps_in | discriminate | exact BL].
  Qed.

  Lemma ofws_in : within (optional (FWS on)) (optional fold).
  Proof. apply optional_mono, fws_in. Qed.

  Scheme rfc_comment_mut := Induction for rfc_comment Sort Prop
    with ccontents_mut := Induction for ccontents Sort Prop
    with ccontent_mut := Induction for ccontent Sort Prop.

  Lemma comment_in : within (rfc_comment on) comment.
  Proof.
    intros x H.
    refine (rfc_comment_mut on (fun x _ => comment x) (fun x _ => many cpart x) (fun x _ => (one comment_char <|> pair_texts <|> comment) x) _ _ _ _ _ _ x H); clear x H.
    - intros x u _ IH U. exists (x ++ u). split; [now rewrite <- app_assoc|]. apply comment_body_many. exists x, u. split; [reflexivity|]. split; [exact IH | now apply ofws_in].
    - constructor.
    - intros u c x U _ IHc _ IHx. rewrite app_assoc. constructor; [|exact IHx]. exists u, c. split; [reflexivity|]. split; [now apply ofws_in | exact IHc].
    - intros x A. left. now apply ctext_in.
    - intros x A. right. left. now apply pair_in.
    - intros x _ A. right. now right.
  Qed.

  Lemma cfws_in : within (CFWS on) (comments <|> fold).
  Proof.
    apply either_mono; [|exact fws_in]. eapply within_trans; [|apply same_sub; symmetry; apply comments_many]. unfold some.
    eapply within_trans; [apply same_sub, cat_assoc|].
    assert (K : within (optional (FWS on) ;; rfc_comment on) (optional fold ;; comment)) by (apply cat_mono; [exact ofws_in | exact comment_in]).
    apply cat_mono; [exact K|]. apply cat_mono; [now apply many_mono | exact ofws_in].
  Qed.

  Lemma ocfws_in : within (optional (CFWS on)) ogap.
  Proof. intros x [->|H]; [now left|]. apply cfws_in in H as [H|H]; [right; now right | right; now left]. Qed.

  (** ** Words *)
  Lemma atom_text_in : within (some (atext on)) atom.
  Proof. eapply within_trans; [|apply same_sub; symmetry; apply atom_many]. apply some_mono, atext_in. Qed.

  Lemma atom_in : within (rfc_atom on) (ogap ;; atom ;; ogap).
  Proof. apply cat_mono; [exact ocfws_in|]. apply cat_mono; [exact atom_text_in | exact ocfws_in]. Qed.

  Lemma dot_text_in : within (dot_atom_text on) dot_atom.
  Proof.
    intros x (u & v & -> & U & w & f & -> & V & F). apply atom_text_in in U. revert u U. induction V as [|y z (p & q & -> & P & Q) V IH]; intros u U.
    - destruct F as [->|[_ F]]; [rewrite app_nil_r; now apply atom_dot_atom|]. unfold lit in F. subst f. exists [u]. split; [discriminate|]. split; [now constructor | now right].
    - unfold lit in P. subst p. assert (E : u ++ bs "." ++ q ++ z ++ f = u ++ ((bs "." ++ q) ++ z) ++ f) by (now rewrite <- !app_assoc). refine (eq_ind _ dot_atom _ _ E). apply (atom_dot u (q ++ z ++ f)); [exact U|]. apply IH. now apply atom_text_in.
  Qed.

  Lemma dot_in : within (rfc_dot_atom on) (ogap ;; dot_atom ;; ogap).
  Proof. apply cat_mono; [exact ocfws_in|]. apply cat_mono; [exact dot_text_in | exact ocfws_in]. Qed.

  Lemma quoted_core_in : within (DQUOTE ;; many (optional (FWS on) ;; qcontent on) ;; optional (FWS on) ;; DQUOTE) quoted_string.
  Proof.
    eapply within_trans; [|apply same_sub, cl_quoted]. eapply within_trans; [|apply same_sub; symmetry; apply cl_quoted_parts].
    apply cat_mono; [apply within_refl|]. apply cat_mono; [|apply cat_mono; [exact ofws_in | apply within_refl]]. apply many_mono. apply cat_mono; [exact ofws_in|].
    apply either_mono; [exact qtext_in | exact pair_in].
  Qed.

  Lemma quoted_in : within (rfc_quoted_string on) (ogap ;; quoted_string ;; ogap).
  Proof.
    unfold rfc_quoted_string. apply cat_mono; [exact ocfws_in|]. intros x H.
    assert (E : ((DQUOTE ;; many (optional (FWS on) ;; qcontent on) ;; optional (FWS on) ;; DQUOTE) ;; optional (CFWS on)) x) by (eapply same_sup; [|exact H]; rewrite !cat_assoc; reflexivity).
    revert x H E. intros x _. apply cat_mono; [exact quoted_core_in | exact ocfws_in].
  Qed.

  Lemma word_in : within (rfc_word on) word_texts.
  Proof.
    apply either_mono; [exact atom_in|]. apply either_mono; [exact quoted_in|]. apply may_in, some_mono.
    apply cat_mono; [exact ocfws_in|]. apply cat_mono; [apply within_refl | exact ocfws_in].
  Qed.

  Lemma words_in : within (many (rfc_word on)) (many name_piece).
  Proof. apply many_sub. eapply within_trans; [exact word_in|]. eapply within_trans; [exact word_name | exact name_pieces]. Qed.

  Lemma word_name_in : within (rfc_word on ;; many name_piece) name_texts.
  Proof.
    eapply within_trans; [apply cat_mono; [eapply within_trans; [exact word_in | exact word_name] | apply within_refl]|].
    eapply within_trans; [apply same_sub, cat_assoc|]. apply cat_mono; [apply within_refl|]. eapply within_trans; [apply same_sub, cat_assoc|]. apply cat_mono; [apply within_refl|].
    intros x (u & v & -> & U & V). exact (many_app _ _ _ U V).
  Qed.

  Lemma phrase_in : within (phrase on) name_texts.
  Proof.
    apply either_within; [|apply may_in]; (eapply within_trans; [|exact word_name_in]); (apply cat_mono; [apply within_refl|]); [exact words_in|].
    apply many_sub. apply either_within; [|apply either_within; [|apply either_within; [|apply may_in]]].
    - eapply within_trans; [exact word_in|]. eapply within_trans; [exact word_name | exact name_pieces].
    - intros x H. apply many_one. right. now left.
    - intros x H. apply gap_pieces. apply ocfws_in. now right.
    - intros x H. apply many_one. right. right. now left.
  Qed.

  (** ** Addresses *)
  Hypothesis no_domain : ~ on O_domain.
  Hypothesis no_dtext : ~ on O_dtext.

  Lemma local_in : within (local_part on) local_texts.
  Proof.
    assert (K : within (obs_local_part on) local_texts).
    { apply into_right. apply cat_mono; [exact word_in|]. apply many_mono. apply cat_mono; [apply within_refl | exact word_in]. }
    apply either_within; [apply into_left; exact dot_in|]. apply either_within; [|apply may_in; exact K].
    intros x H. right. exists x, []. split; [symmetry; apply app_nil_r|]. split; [apply word_in; right; now left | constructor].
  Qed.

  Lemma literal_in : within (domain_literal on) (ogap ;; (lit "[" ;; literal_body ;; lit "]") ;; ogap).
  Proof.
    apply cat_mono; [exact ocfws_in|]. intros x H.
    assert (E : ((lit "[" ;; (many (optional (FWS on) ;; rfc_dtext on) ;; optional (FWS on)) ;; lit "]") ;; optional (CFWS on)) x) by (eapply same_sup; [|exact H]; rewrite !cat_assoc; reflexivity).
    revert x H E. intros x _. apply cat_mono; [|exact ocfws_in]. apply cat_mono; [apply within_refl|]. apply cat_mono; [|apply within_refl].
    eapply within_trans; [|apply same_sub; symmetry; apply literal_many]. apply cat_mono; [|exact ofws_in]. apply many_mono. apply cat_mono; [exact ofws_in | now apply dtext_in].
  Qed.

  Lemma domain_in : within (domain on) domain_texts.
  Proof.
    unfold domain_texts. apply either_within; [|apply either_within; [|now apply may_no]].
    - eapply within_trans; [exact dot_in|]. apply gapped_mono. now apply into_left.
    - eapply within_trans; [exact literal_in|]. apply gapped_mono. now apply into_right.
  Qed.

  Lemma spec_in : within (addr_spec on) spec_texts.
  Proof.
    apply cat_mono; [exact local_in|]. apply cat_mono; [apply within_refl|]. apply cat_mono; [exact domain_in|]. apply optional_mono, may_in, cat_mono; [apply within_refl | apply some_mono, digit_in].
  Qed.

  Lemma route_in : within (obs_route on) route_texts.
  Proof.
    unfold obs_route, obs_domain_list, route_texts. eapply within_trans; [apply same_sub, cat_assoc|]. apply cat_mono.
    - eapply within_trans; [|apply same_sub, filler_many]. apply many_mono. apply either_mono; [exact cfws_in | apply within_refl].
    - eapply within_trans; [apply same_sub, cat_assoc|]. apply cat_mono; [apply within_refl|]. eapply within_trans; [apply same_sub, cat_assoc|]. apply cat_mono; [exact domain_in|].
      apply cat_mono; [|apply within_refl]. apply many_mono. apply cat_mono; [apply within_refl|]. apply cat_mono; [exact ocfws_in|]. apply optional_mono. apply cat_mono; [apply within_refl | exact domain_in].
  Qed.

  Lemma angle_in : within (angle_addr on) angle_texts.
  Proof.
    unfold angle_texts. apply either_within; [|apply either_within; apply may_in].
    - apply cat_mono; [exact ocfws_in|]. apply cat_mono; [apply within_refl|]. apply cat_mono; [|apply cat_mono; [apply within_refl | exact ocfws_in]]. apply into_left. intros x H. right. now apply spec_in.
    - apply cat_mono; [exact ocfws_in|]. apply cat_mono; [apply within_refl|]. intros x H.
      assert (E : ((obs_route on ;; addr_spec on) ;; lit ">" ;; optional (CFWS on)) x) by (eapply same_sup; [|exact H]; rewrite !cat_assoc; reflexivity). revert x H E. intros x _.
      apply cat_mono; [|apply cat_mono; [apply within_refl | exact ocfws_in]]. apply into_right. apply cat_mono; [exact route_in | exact spec_in].
    - apply cat_mono; [exact ocfws_in|]. apply cat_mono; [apply within_refl|]. intros x H. exists [], x. split; [reflexivity|]. split; [left; now left|]. revert x H. apply cat_mono; [apply within_refl | exact ocfws_in].
  Qed.

  Lemma mailbox_in : within (mailbox on) mailbox_texts.
  Proof. apply either_mono; [|exact spec_in]. apply cat_mono; [apply optional_mono; exact phrase_in | exact angle_in]. Qed.

  (** entries separated by commas, at least one of them not empty *)
  Lemma entries_in P Q : within P Q ->
    within (many (optional (CFWS on) ;; lit ",") ;; P ;; many (lit "," ;; optional (P <|> CFWS on))) (many (ogap ;; lit ",") ;; Q ;; many (lit "," ;; (Q <|> ogap))).
  Proof.
    intros H. apply cat_mono; [apply many_mono, cat_mono; [exact ocfws_in | apply within_refl]|]. apply cat_mono; [exact H|]. apply many_mono. apply cat_mono; [apply within_refl|].
    eapply within_trans; [|apply same_sub, opt_entry]. apply optional_mono. apply either_mono; [exact H | exact cfws_in].
  Qed.

  Lemma mailbox_list_in : within (mailbox_list on) (entries mailbox_texts).
  Proof.
    apply either_within; [|apply may_in].
    - apply cat_mono; [apply into_left; exact mailbox_in|]. apply many_mono. apply cat_mono; [apply within_refl | apply into_left; exact mailbox_in].
    - eapply within_trans; [|apply same_sup, entries_split]. apply into_right. apply entries_in. exact mailbox_in.
  Qed.

  Lemma group_list_in : within (optional (group_list on)) (entries mailbox_texts).
  Proof.
    assert (G : within ogap (entries mailbox_texts)) by (intros x H; exists x, []; split; [symmetry; apply app_nil_r|]; split; [now right | constructor]).
    apply optional_within; [apply G; exact ogap_nil|]. apply either_within; [exact mailbox_list_in|]. apply either_within.
    - intros x H. apply G. apply ocfws_in. now right.
    - apply may_in. eapply within_trans; [|apply same_sup, entries_split]. apply into_left. eapply within_trans; [|apply same_sup, gaps_junk].
      apply cat_mono; [|exact ocfws_in]. intros x (u & v & -> & U & V).
      assert (K : within (optional (CFWS on) ;; lit ",") (ogap ;; lit ",")) by (apply cat_mono; [exact ocfws_in | apply within_refl]).
      constructor; [now apply K | now apply (many_mono _ _ K)].
  Qed.

  Lemma group_in : within (group on) group_texts.
  Proof.
    apply cat_mono; [apply optional_mono, may_in, within_refl|]. apply cat_mono; [exact phrase_in|]. apply cat_mono; [apply within_refl|].
    eapply within_trans; [apply cat_mono; [exact group_list_in | apply within_refl]|]. unfold entries. eapply within_trans; [apply same_sub, cat_assoc|].
    apply cat_mono; [apply within_refl|]. apply cat_mono; [apply within_refl|]. apply cat_mono; [apply optional_mono, may_in, within_refl|]. apply cat_mono; [|exact ocfws_in].
    intros x [H|[_ H]]; [now right | now left].
  Qed.

  Lemma address_in : within (address on) one_address.
  Proof. apply either_mono; [exact mailbox_in | exact group_in]. Qed.

  Lemma address_list_in : within (address_list on) address_list_texts.
  Proof.
    apply either_within; [|apply either_within].
    - apply into_left. apply cat_mono; [exact address_in|]. apply many_mono. apply cat_mono; [intros x H; now left | exact address_in].
    - apply into_right, may_in. apply entries_in. exact address_in.
    - apply into_left, may_in. apply cat_mono; [exact address_in|]. apply many_mono. apply cat_mono; [apply within_refl | exact address_in].
  Qed.

End accepted.

Section dates.
  Variable on : form -> Prop.
  Hypothesis no_fws : ~ on O_FWS.
  Hypothesis no_high : ~ on U_high_characters.
  Hypothesis no_long : ~ on Long_year.
  Hypothesis no_obs_long : ~ on O_long_obs_year.
  Hypothesis no_military : ~ on O_military.

  Notation fws_in := (fws_in on no_fws).
  Notation ocfws_in := (ocfws_in on no_fws no_high).

  Lemma gapped P Q : within P Q -> within (optional (CFWS on) ;; P ;; optional (CFWS on)) (ogap ;; Q ;; ogap).
  Proof. intros H. apply cat_mono; [exact ocfws_in|]. apply cat_mono; [exact H | exact ocfws_in]. Qed.

  Lemma half_gapped P : within (optional (FWS on) ;; P) (ogap ;; P ;; ogap).
  Proof.
    intros x (u & v & -> & U & V). exists u, v. split; [reflexivity|]. split; [apply ocfws_in; destruct U as [U|U]; [now left | right; now right]|].
    exists v, []. split; [symmetry; apply app_nil_r | split; [exact V | exact ogap_nil]].
  Qed.

  Lemma day_of_week_in : within (day_of_week on) (ogap ;; named day_names ;; ogap).
  Proof. apply either_within; [apply half_gapped | apply may_in, gapped, within_refl]. Qed.

  Lemma day_in : within (rfc_day on) (ogap ;; digit ;; optional digit ;; ogap).
  Proof.
    eapply within_trans; [|apply cat_mono; [apply within_refl | apply same_sub, cat_assoc]]. apply either_within; [|apply may_in, gapped, within_refl].
    intros x (u & v & -> & U & w & z & -> & W & Z). exists u, (w ++ z). split; [reflexivity|]. split; [apply ocfws_in; destruct U as [U|U]; [now left | right; now right]|].
    exists w, z. split; [reflexivity|]. split; [exact W|]. apply ocfws_in. right. now right.
  Qed.

  Lemma year_in : within (rfc_year on) (fold ;; digit ;; digit ;; digit ;; digit ;; fold <|> ogap ;; digit ;; digit ;; ogap).
  Proof.
    apply either_within; [|apply either_within; [now apply may_no | apply either_within; [|now apply may_no]]].
    - apply into_left. apply cat_mono; [exact fws_in|]. eapply within_trans; [apply cat_mono; [apply within_refl | exact fws_in]|]. unfold four. apply same_sub. rewrite !cat_assoc. reflexivity.
    - apply into_right, may_in. eapply within_trans; [apply gapped, within_refl|]. apply cat_mono; [apply within_refl|]. apply same_sub, cat_assoc.
  Qed.

  Lemma two_in f : within (two DIGIT <|> may on f (optional (CFWS on) ;; two DIGIT ;; optional (CFWS on))) (ogap ;; digit ;; digit ;; ogap).
  Proof.
    eapply within_trans; [|apply cat_mono; [apply within_refl | apply same_sub, cat_assoc]]. apply either_within; [apply no_gaps | apply may_in, gapped, within_refl].
  Qed.

  Lemma hour_in : within (rfc_hour on) (ogap ;; optional digit ;; digit ;; ogap).
  Proof.
    intros x H. assert (E : (two DIGIT <|> may on O_hour (optional (CFWS on) ;; two DIGIT ;; optional (CFWS on))) x \/ may on X_short_hour (optional (CFWS on) ;; DIGIT ;; optional (CFWS on)) x) by (unfold rfc_hour, either in *; tauto). clear H. destruct E as [E|[_ E]].
    - apply two_in in E. revert x E. apply cat_mono; [apply within_refl|]. apply cat_mono; [intros x H; now right | apply within_refl].
    - revert x E. apply cat_mono; [exact ocfws_in|]. intros x E. exists [], x. split; [reflexivity|]. split; [now left|]. revert x E. apply cat_mono; [apply within_refl | exact ocfws_in].
  Qed.

  Lemma zone_in : within (rfc_zone on) (optional (fold ;; optional (lit "+" <|> lit "-") ;; digit ;; digit ;; digit ;; digit <|> named (map fst zone_names))).
  Proof.
    unfold rfc_zone. apply either_within; [|apply either_within; [|apply either_within; [now apply may_no|]; apply either_within; [|apply either_within]]].
    - intros x H. right. left. revert x H. apply cat_mono; [exact fws_in|]. apply cat_mono; [intros x H; now right | apply within_refl].
    - apply may_in. intros x H. right. right. change (In (to_lower x) (map fst zone_names)). change (In (to_lower x) [bs "ut"; bs "gmt"; bs "est"; bs "edt"; bs "cst"; bs "cdt"; bs "mst"; bs "mdt"; bs "pst"; bs "pdt"]) in H.
      cbn [zone_names map fst]. cbn [In] in *. tauto.
    - apply may_in. intros x H. right. left. revert x H. apply cat_mono; [exact fws_in|]. intros x H. exists [], x. split; [reflexivity|]. split; [now left | exact H].
    - apply may_in. intros x H. right. right. change (In (to_lower x) (map fst zone_names)). change (In (to_lower x) [bs "utc"]) in H. cbn [zone_names map fst]. cbn [In] in *. tauto.
    - apply may_in. intros x H. now left.
  Qed.

  Lemma date_time_in : within (rfc_date_time on) date_texts.
  Proof.
    unfold rfc_date_time, time_of_day, date_texts. intros x H.
    assert (E : (optional (day_of_week on ;; lit ",") ;; rfc_day on ;; rfc_month ;; rfc_year on ;; rfc_hour on ;; lit ":" ;; rfc_minute on ;; optional (lit ":" ;; rfc_second on) ;; rfc_zone on ;; optional (CFWS on)) x)
      by (eapply same_sub; [|exact H]; rewrite !cat_assoc; reflexivity).
    revert x H E. intros x _. apply cat_mono.
    { apply optional_mono. eapply within_trans; [apply cat_mono; [exact day_of_week_in | apply within_refl]|]. apply same_sub. rewrite !cat_assoc. reflexivity. }
    apply cat_mono; [exact day_in|]. apply cat_mono; [apply within_refl|]. apply cat_mono; [exact year_in|]. apply cat_mono; [exact hour_in|]. apply cat_mono; [apply within_refl|].
    apply cat_mono; [apply two_in|]. apply cat_mono; [apply optional_mono, cat_mono; [apply within_refl | apply two_in]|].
    apply cat_mono; [exact zone_in | exact ocfws_in].
  Qed.
End dates.
