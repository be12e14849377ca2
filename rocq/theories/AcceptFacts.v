(** The sentences of the grammar are the texts of AcceptText.v. *)
From Coq Require Import String List NArith ZArith Bool Arith Lia Setoid Morphisms.
From Verif Require Import Lexer Grammar Utf8 Strs Mime GoTime Parser Walker Api Spec ParserFacts
  WalkerFacts Static Total Cfws LangFacts LexFacts Utf8Facts First DateSpec AddrSpec Chosen AddrSem CharFacts PropApi PropInv
  ScanSpec AddrText MboxList TextLang EncText EncConv PropStable DateAccept AcceptText.
Import ListNotations.
Local Open Scope text_scope.

(** ** Sets of texts *)
Definition same (P Q : texts) : Prop := forall x, P x <-> Q x.
Definition within (P Q : texts) : Prop := forall x, P x -> Q x.

#[global] Instance same_equiv : Equivalence same.
Proof. split; [intros P x; tauto | intros P Q H x; specialize (H x); tauto | intros P Q R H1 H2 x; specialize (H1 x); specialize (H2 x); tauto]. Qed.

Lemma same_within P Q : within P Q -> within Q P -> same P Q.
Proof. intros H1 H2 x. split; auto. Qed.

Lemma same_sub P Q : same P Q -> within P Q.
Proof. intros H x. apply H. Qed.
Lemma same_sup P Q : same P Q -> within Q P.
Proof. intros H x. apply H. Qed.

Lemma within_refl P : within P P.
Proof. now intros x. Qed.
Lemma within_trans P Q R : within P Q -> within Q R -> within P R.
Proof. intros H1 H2 x H. auto. Qed.

Lemma cat_mono P P' Q Q' : within P P' -> within Q Q' -> within (P ;; Q) (P' ;; Q').
Proof. intros H1 H2 x (u & v & -> & Hu & Hv). exists u, v. auto. Qed.
Lemma either_mono P P' Q Q' : within P P' -> within Q Q' -> within (P <|> Q) (P' <|> Q').
Proof. intros H1 H2 x [H|H]; [left | right]; auto. Qed.
Lemma many_mono P P' : within P P' -> within (many P) (many P').
Proof. intros H x Hx. induction Hx; [constructor|]. constructor; auto. Qed.
Lemma optional_mono P P' : within P P' -> within (optional P) (optional P').
Proof. intros H x [Hx|Hx]; [now left | right; auto]. Qed.

#[global] Instance cat_same : Proper (same ==> same ==> same) cat.
Proof. intros P P' H Q Q' H'. apply same_within; apply cat_mono; intros x; first [apply H | apply H']. Qed.
#[global] Instance either_same : Proper (same ==> same ==> same) either.
Proof. intros P P' H Q Q' H'. apply same_within; apply either_mono; intros x; first [apply H | apply H']. Qed.
#[global] Instance many_same : Proper (same ==> same) many.
Proof. intros P P' H. apply same_within; apply many_mono; intros x; apply H. Qed.
#[global] Instance optional_same : Proper (same ==> same) optional.
Proof. intros P P' H. apply same_within; apply optional_mono; intros x; apply H. Qed.

Lemma cat_assoc P Q R : same ((P ;; Q) ;; R) (P ;; Q ;; R).
Proof.
  apply same_within; intros x.
  - intros (y & w & -> & (u & v & -> & Hu & Hv) & Hw). exists u, (v ++ w). rewrite app_assoc. repeat split; auto. exists v, w. auto.
  - intros (u & y & -> & Hu & (v & w & -> & Hv & Hw)). exists (u ++ v), w. rewrite app_assoc. repeat split; auto. exists u, v. auto.
Qed.

Lemma many_app P x y : many P x -> many P y -> many P (x ++ y).
Proof. intros Hx Hy. induction Hx as [|u v Hu Hv IH]; [exact Hy|]. rewrite <- app_assoc. now constructor. Qed.

Lemma many_one (P : texts) x : P x -> many P x.
Proof. intros H. rewrite <- (app_nil_r x). constructor; [exact H | constructor]. Qed.

Lemma many_many P : within (many (many P)) (many P).
Proof. intros x H. induction H; [constructor|]. now apply many_app. Qed.

Lemma many_sub P Q : within P (many Q) -> within (many P) (many Q).
Proof. intros H x Hx. apply many_many. now apply (many_mono P). Qed.

Lemma cat_many P Q R : within P (many R) -> within Q (many R) -> within (P ;; Q) (many R).
Proof. intros H1 H2 x (u & v & -> & Hu & Hv). apply many_app; auto. Qed.

(** ** Sentences as texts *)
Definition cl (g : gexp) : texts := fun x => bmps x /\ lang g (toks x).

Lemma toks_cut x u v : toks x = u ++ v -> exists x1 x2, x = x1 ++ x2 /\ toks x1 = u /\ toks x2 = v.
Proof. intros H. apply map_eq_app in H as (x1 & x2 & -> & H1 & H2). exists x1, x2. auto. Qed.

Lemma cl_seq a b : same (cl (Seq a b)) (cl a ;; cl b).
Proof.
  apply same_within; intros x.
  - intros [B H]. apply lang_seq in H as (u & v & E & Hu & Hv). apply toks_cut in E as (x1 & x2 & -> & <- & <-). apply bmps_app in B as [B1 B2].
    exists x1, x2. unfold cl. auto.
  - intros (u & v & -> & [Bu Hu] & [Bv Hv]). split; [now apply bmps_app|]. rewrite toks_app. now apply lang_seq_i.
Qed.

Lemma cl_alt a b : same (cl (Alt a b)) (cl a <|> cl b).
Proof. intros x. unfold cl, either. rewrite lang_alt. tauto. Qed.

Lemma cl_opt a : same (cl (Opt a)) (optional (cl a)).
Proof.
  intros x. unfold Opt, cl, optional. rewrite lang_alt. split.
  - intros [B [H|H]]; [right; auto|]. left. apply lang_eps in H. destruct x; [reflexivity | discriminate H].
  - intros [->|[B H]]; [|auto]. split; [constructor|]. right. now apply lang_eps.
Qed.

Lemma cl_star a : same (cl (Star a)) (many (cl a)).
Proof.
  apply same_within; intros x.
  - intros [B H]. apply lang_star_inv in H as (us & E & H). revert x B E. induction H as [|u us Hu H IH]; intros x B E.
    + destruct x; [constructor | discriminate E].
    + cbn [concat] in E. apply toks_cut in E as (x1 & x2 & -> & <- & E). apply bmps_app in B as [B1 B2]. constructor; [split; auto | now apply IH].
  - intros H. induction H as [|u v [Bu Hu] Hv [Bv IH]]; [split; [constructor | apply lang_star_nil]|]. split; [now apply bmps_app|]. rewrite toks_app. now apply lang_star_cons.
Qed.

Lemma cl_nt r : same (cl (Nt r)) (cl (body r)).
Proof. intros x. unfold cl. now rewrite lang_nt. Qed.

Lemma cl_plus a : same (cl (Plus a)) (cl a ;; many (cl a)).
Proof. unfold Plus. rewrite cl_seq. now rewrite cl_star. Qed.

Lemma cl_cls ts p : (forall r, bmp r = true -> memb (tt (tok_of r)) ts = p r) -> (forall r, p r = true -> bmp r = true) -> same (cl (Cls ts)) (one p).
Proof.
  intros C N x. split.
  - intros [B H]. apply lang_cls in H as (t & E & Ht). destruct x as [|r [|? ?]]; try discriminate E. injection E as E. exists r. split; [reflexivity|].
    rewrite <- C by (now apply Forall_inv in B). apply memb_In. now rewrite E.
  - intros (r & -> & Hr). pose proof (N r Hr) as B. split; [now apply bmps_one|]. apply lang_cls_i. apply memb_In. now rewrite C.
Qed.

Lemma cl_rule r p : single_rule r = true -> (forall c, bmp c = true -> memb (tt (tok_of c)) (types r) = p c) -> (forall c, p c = true -> bmp c = true) -> same (cl (Nt r)) (one p).
Proof.
  intros S C N x. split.
  - intros [B H]. apply single_lang in H as (t & E & Ht); [|assumption]. destruct x as [|c [|? ?]]; try discriminate E. injection E as E. exists c. split; [reflexivity|].
    rewrite <- C by (now apply Forall_inv in B). apply memb_In. now rewrite E.
  - intros (c & -> & Hc). pose proof (N c Hc) as B. split; [now apply bmps_one|]. apply single_lang_i; [assumption|]. apply memb_In. now rewrite C.
Qed.

(** a token that stands for one ASCII character *)
Lemma cl_char ty c : class_ok [ty] (N.eqb c) = true -> (c <? 128)%N = true -> memb T_UTF8NonAscii [ty] = false -> same (cl (Tok ty)) (fun x => x = [c]).
Proof.
  intros C A U. unfold Tok. rewrite (cl_cls [ty] (N.eqb c)).
  - intros x. split; [intros (r & -> & Hr); apply N.eqb_eq in Hr; now subst | intros ->; exists c; split; [reflexivity | apply N.eqb_refl]].
  - apply class_spec; [exact C|]. intros r Hr. rewrite U. apply N.eqb_neq. apply N.ltb_lt in A. intros ->. lia.
  - intros r Hr. apply N.eqb_eq in Hr. subst r. apply N.ltb_lt in A. unfold bmp. apply N.leb_le. lia.
Qed.

Ltac chr ty c := assert (same (cl (Tok ty)) (fun x => x = [c])) by (apply cl_char; vm_compute; reflexivity).

Lemma cl_lparen : same (cl (Tok T_LParens)) (lit "("). Proof. apply (cl_char T_LParens 40%N); vm_compute; reflexivity. Qed.
Lemma cl_rparen : same (cl (Tok T_RParens)) (lit ")"). Proof. apply (cl_char T_RParens 41%N); vm_compute; reflexivity. Qed.
Lemma cl_dquote : same (cl (Tok T_DQuote)) (lit """"). Proof. apply (cl_char T_DQuote 34%N); vm_compute; reflexivity. Qed.
Lemma cl_period : same (cl (Tok T_Period)) (lit "."). Proof. apply (cl_char T_Period 46%N); vm_compute; reflexivity. Qed.
Lemma cl_comma : same (cl (Tok T_Comma)) (lit ","). Proof. apply (cl_char T_Comma 44%N); vm_compute; reflexivity. Qed.
Lemma cl_semicolon : same (cl (Tok T_Semicolon)) (lit ";"). Proof. apply (cl_char T_Semicolon 59%N); vm_compute; reflexivity. Qed.
Lemma cl_colon : same (cl (Tok T_Colon)) (lit ":"). Proof. apply (cl_char T_Colon 58%N); vm_compute; reflexivity. Qed.
Lemma cl_at : same (cl (Tok T_At)) (lit "@"). Proof. apply (cl_char T_At 64%N); vm_compute; reflexivity. Qed.
Lemma cl_less : same (cl (Tok T_Less)) (lit "<"). Proof. apply (cl_char T_Less 60%N); vm_compute; reflexivity. Qed.
Lemma cl_greater : same (cl (Tok T_Greater)) (lit ">"). Proof. apply (cl_char T_Greater 62%N); vm_compute; reflexivity. Qed.
Lemma cl_equal : same (cl (Tok T_Equal)) (lit "="). Proof. apply (cl_char T_Equal 61%N); vm_compute; reflexivity. Qed.
Lemma cl_question : same (cl (Tok T_Question)) (lit "?"). Proof. apply (cl_char T_Question 63%N); vm_compute; reflexivity. Qed.
Lemma cl_backslash : same (cl (Tok T_Backslash)) (lit "\"). Proof. apply (cl_char T_Backslash 92%N); vm_compute; reflexivity. Qed.
Lemma cl_lbracket : same (cl (Tok T_LBracket)) (lit "["). Proof. apply (cl_char T_LBracket 91%N); vm_compute; reflexivity. Qed.
Lemma cl_rbracket : same (cl (Tok T_RBracket)) (lit "]"). Proof. apply (cl_char T_RBracket 93%N); vm_compute; reflexivity. Qed.

Lemma bmp_digit r : digit_char r = true -> bmp r = true.
Proof. unfold digit_char. now apply in_range_bmp. Qed.

Lemma cl_digit : same (cl (Tok T_Digit)) digit.
Proof. apply cl_cls; [exact digit_class | exact bmp_digit]. Qed.

(** ** White space and comments *)
Lemma ogap_some g x : nullable g = false -> lang (Opt g) (toks x) -> x <> [] -> lang g (toks x).
Proof. intros N H E. apply lang_opt_inv in H as [H|H]; [exact H|]. destruct x; [contradiction | discriminate H]. Qed.

Lemma cl_nonnil g x : nullable g = false -> cl g x -> x <> [].
Proof. intros N [B H] ->. apply lang_nullable in H. congruence. Qed.

Lemma fold_nonnil x : fold x -> x <> [].
Proof. intros [a N _|a b _ N _]; [exact N | destruct a; discriminate]. Qed.

Lemma tr_toks x : map tr (toks x) = x.
Proof. apply map_tr_tok_of. Qed.

Lemma cl_fws : same (cl (Nt R_fws)) fold.
Proof.
  intros x. split.
  - intros H. pose proof (cl_nonnil (Nt R_fws) x eq_refl H) as N. destruct H as [B H]. destruct (fold_of (toks x)) as [E|E].
    + now apply toks_lexed_bmp.
    + now apply lang_opt_some.
    + rewrite tr_toks in E. contradiction.
    + rewrite tr_toks in E. exact E.
  - intros H. split; [now apply fold_bmp|]. apply ogap_some; [reflexivity | exact (ofold_fws x (or_intror H)) | now apply fold_nonnil].
Qed.

Lemma cl_ofws : same (cl (Opt (Nt R_fws))) (optional fold).
Proof. rewrite cl_opt. now rewrite cl_fws. Qed.

Definition pair_texts : texts := fun x => exists r, x = [92%N; r] /\ pair_char r = true.

Lemma cl_pair : same (cl (Nt R_quotedPair)) pair_texts.
Proof.
  intros x. split.
  - intros [B H]. apply lang_nt in H. change (body R_quotedPair) with g_quotedPair in H. unfold g_quotedPair in H. cbn [alts seqs] in H.
    apply lang_alt in H. assert (E : exists b t, toks x = [b; t] /\ tt b = T_Backslash).
    { destruct H as [H|H].
      - apply lang_seq in H as (u & v & E & Hu & Hv). apply lang_cls in Hu as (b & -> & Hb). apply single_lang in Hv as (t & -> & _); [|reflexivity]. exists b, t. split; [exact E|]. destruct Hb as [<-|[]]. reflexivity.
      - apply lang_nt in H. change (body R_obsQP) with g_obsQP in H. unfold g_obsQP in H. cbn [alts seqs] in H. apply lang_seq in H as (u & v & E & Hu & Hv). apply lang_cls in Hu as (b & -> & Hb).
        assert (L : exists t, v = [t]).
        { apply lang_alt in Hv as [Hv|Hv]; [apply lang_cls in Hv as (t & -> & _); eauto|]. apply lang_alt in Hv as [Hv|Hv]; [apply single_lang in Hv as (t & -> & _); [eauto | reflexivity]|].
          apply lang_alt in Hv as [Hv|Hv]; apply lang_cls in Hv as (t & -> & _); eauto. }
        destruct L as [t ->]. exists b, t. split; [exact E|]. destruct Hb as [<-|[]]. reflexivity. }
    destruct E as (b & t & E & Hb). destruct x as [|c [|r [|? ?]]]; try discriminate E. injection E as E1 E2. exists r. inversion B as [|? ? Bc B']; subst. apply Forall_inv in B'. split; [|exact B'].
    assert (Hc : c = 92%N); [|now subst]. apply (tok_char T_Backslash 92%N (tok_of c)); [vm_compute; reflexivity | lia | discriminate | now apply tok_of_lexed | exact Hb].
  - intros (r & -> & Hr). assert (B : bmp r = true) by (now apply pair_bmp). split; [constructor; [reflexivity | now apply bmps_one]|]. now apply lang_pair.
Qed.

Lemma cl_ctext : same (cl (Nt R_ctext)) (one comment_char).
Proof. apply cl_rule; [reflexivity | exact ctext_class | exact comment_char_bmp]. Qed.
Lemma cl_qtext : same (cl (Nt R_qtext)) (one quoted_char).
Proof. apply cl_rule; [reflexivity | exact qtext_quoted | exact quoted_char_bmp]. Qed.

(** the parts of the body of a comment *)
Definition cpart : texts := optional fold ;; (one comment_char <|> pair_texts <|> comment).

Lemma comment_body_many : within (many cpart ;; optional fold) comment_body.
Proof.
  intros x (u & v & -> & Hu & Hv). induction Hu as [|p u Hp Hu IH]; [now apply cb_end|]. rewrite <- app_assoc. destruct Hp as (f & c & -> & Hf & Hc). rewrite <- app_assoc.
  destruct Hc as [(r & -> & Hr)|[(r & -> & Hr)|(b & -> & Hb)]]; [now apply cb_char | now apply cb_pair | now apply cb_nested].
Qed.

Lemma many_len P x : many P x -> many (fun u => P u /\ length u <= length x) x.
Proof.
  intros H. induction H as [|u v Hu Hv IH]; [constructor|]. constructor; [split; [exact Hu | rewrite app_length; lia]|].
  eapply many_mono; [|exact IH]. intros y [Hy L]. split; [exact Hy | rewrite app_length; lia].
Qed.

Lemma cl_comment_parts : same (cl (Nt R_comment)) (lit "(" ;; many (optional fold ;; (one comment_char <|> pair_texts <|> cl (Nt R_comment))) ;; optional fold ;; lit ")").
Proof.
  transitivity (cl (body R_comment)); [apply cl_nt|]. change (body R_comment) with g_comment. unfold g_comment. cbn [seqs]. rewrite !cl_seq, cl_star, cl_seq, !cl_ofws, cl_lparen, cl_rparen.
  rewrite (cl_nt R_ccontent). change (body R_ccontent) with g_ccontent. unfold g_ccontent. cbn [alts]. rewrite !cl_alt, cl_ctext, cl_pair. reflexivity.
Qed.

Lemma comment_of n : forall x, length x < n -> cl (Nt R_comment) x -> comment x.
Proof.
  induction n as [|n IH]; intros x L H; [lia|]. apply cl_comment_parts in H. destruct H as (? & y & -> & -> & (m & z & -> & Hm & (f & ? & -> & Hf & ->))).
  exists (m ++ f). split; [now rewrite <- app_assoc|]. apply comment_body_many. exists m, f. split; [reflexivity|]. split; [|exact Hf].
  rewrite !app_length in L. cbn in L. apply many_len in Hm. eapply many_mono; [|exact Hm]. intros u [(o & c & -> & Ho & Hc) Lu]. exists o, c. split; [reflexivity|]. split; [exact Ho|].
  destruct Hc as [Hc|[Hc|Hc]]; [now left | right; now left | right; right]. apply IH; [|exact Hc]. rewrite app_length in Lu. lia.
Qed.

Lemma cl_comment : same (cl (Nt R_comment)) comment.
Proof. intros x. split; [apply (comment_of (S (length x))); lia | apply comment_lang]. Qed.

Lemma comments_many : same comments ((optional fold ;; comment) ;; many (optional fold ;; comment) ;; optional fold).
Proof.
  apply same_within; intros x.
  - intros H. induction H as [u c u' Hu Hc Hu'|u c x Hu Hc Hx (p & q & -> & Hp & (m & f & -> & Hm & Hf))].
    + exists (u ++ c), u'. rewrite <- app_assoc. split; [reflexivity|]. split; [exists u, c; auto|]. exists [], u'. split; [reflexivity|]. split; [constructor | exact Hu'].
    + exists (u ++ c), (p ++ m ++ f). rewrite <- app_assoc. split; [reflexivity|]. split; [exists u, c; auto|]. exists (p ++ m), f. rewrite <- app_assoc. split; [reflexivity|]. split; [now constructor | exact Hf].
  - intros (p & q & -> & Hp & (m & f & -> & Hm & Hf)). revert p Hp. induction Hm as [|p' m Hp' Hm IH]; intros p (u & c & -> & Hu & Hc); rewrite <- app_assoc.
    + cbn [app]. now apply cs_one.
    + rewrite <- (app_assoc p'). apply cs_more; auto.
Qed.

Lemma cl_cfws : same (cl (Nt R_cfws)) (comments <|> fold).
Proof.
  rewrite cl_nt. change (body R_cfws) with g_cfws. unfold g_cfws. cbn [alts seqs]. rewrite cl_alt, cl_fws, cl_seq, cl_plus, cl_seq, cl_ofws, cl_comment, comments_many. now rewrite cat_assoc.
Qed.

Lemma cl_gap : same (cl (Opt (Nt R_cfws))) ogap.
Proof. rewrite cl_opt, cl_cfws. intros x. unfold optional, either, ogap. tauto. Qed.

(** ** Quoted strings, atoms, encoded words *)
Lemma cl_quoted_parts : same (cl (Nt R_quotedString)) (lit """" ;; many (optional fold ;; (one quoted_char <|> pair_texts)) ;; optional fold ;; lit """").
Proof.
  rewrite cl_nt. change (body R_quotedString) with g_quotedString. unfold g_quotedString. cbn [seqs].
  rewrite !cl_seq, (cl_nt R_quotedValue). change (body R_quotedValue) with g_quotedValue. unfold g_quotedValue. cbn [seqs].
  rewrite cl_star, cl_seq, !cl_ofws, cl_dquote. rewrite (cl_nt R_quotedContent). change (body R_quotedContent) with g_quotedContent. unfold g_quotedContent. cbn [alts].
  rewrite cl_alt, cl_qtext, cl_pair. reflexivity.
Qed.

Lemma cl_quoted : same (cl (Nt R_quotedString)) quoted_string.
Proof.
  intros x. split; [|intros [t H]; now apply (quoted_lang x t)].
  intros H. apply cl_quoted_parts in H. destruct H as (? & y & -> & -> & (m & z & -> & Hm & (f & ? & -> & Hf & ->))).
  assert (B : exists t, quoted_body (m ++ f) t).
  { induction Hm as [|p m Hp Hm [t IH]]; [exists []; now apply qb_end|]. destruct Hp as (o & c & -> & Ho & Hc). rewrite <- !app_assoc.
    destruct Hc as [(r & -> & Hr)|(r & -> & Hr)]; eexists; [apply qb_char | apply qb_pair]; eauto. }
  destruct B as [t B]. exists t, (m ++ f). split; [now rewrite <- app_assoc | exact B].
Qed.

Lemma many_all p x : many (one p) x <-> Forall (fun r => p r = true) x.
Proof.
  split.
  - intros H. induction H as [|u v (r & -> & Hr) Hv IH]; [constructor|]. now constructor.
  - intros H. induction H as [|r x Hr H IH]; [constructor|]. change (r :: x) with ([r] ++ x). constructor; [exists r; auto | exact IH].
Qed.

Lemma many1_all p : same (one p ;; many (one p)) (nonempty_all p).
Proof.
  intros x. split.
  - intros (u & v & -> & (r & -> & Hr) & Hv). apply many_all in Hv. split; [discriminate | now constructor].
  - intros [N H]. destruct x as [|r x]; [contradiction|]. inversion H; subst. exists [r], x. split; [reflexivity|]. split; [exists r; auto | now apply many_all].
Qed.

Lemma bmp_atext r : atext_char r = true -> bmp r = true.
Proof. intros H. assert (A : atom [r]) by (split; [discriminate | now constructor]). apply atom_bmp in A. now apply Forall_inv in A. Qed.

Lemma cl_atext : same (cl (Nt R_atext)) (one atext_char).
Proof. apply cl_rule; [reflexivity | exact atext_class | exact bmp_atext]. Qed.

Lemma atom_many : same atom (one atext_char ;; many (one atext_char)).
Proof. rewrite many1_all. reflexivity. Qed.

Lemma cl_atom : same (cl (Nt R_atom)) atom.
Proof. rewrite cl_nt. change (body R_atom) with g_atom. unfold g_atom. now rewrite cl_plus, cl_atext, atom_many. Qed.

Lemma cl_dot : same (cl (Nt R_dotAtom)) dot_atom.
Proof.
  intros x. split.
  - intros [B H]. apply lang_dotAtom in H; [|now apply toks_lexed_bmp]. now rewrite tr_toks in H.
  - intros H. split; [now apply dot_bmps | now apply lang_dotAtom_i].
Qed.

Lemma cl_obsDomain : within (cl (Nt R_obsDomain)) dot_atom.
Proof. intros x [B H]. apply lang_obsDomain in H; [|now apply toks_lexed_bmp]. now rewrite tr_toks in H. Qed.

Lemma enc_token_bmp r : enc_token_char r = true -> bmp r = true.
Proof.
  unfold enc_token_char, charset_char. intros H. apply orb_true_iff in H as [H|H].
  - rewrite !orb_true_iff in H. destruct H as [[[H|H]|H]|H]; try (now apply in_range_bmp in H). apply existsb_exists in H as (c & Hc & E). apply N.eqb_eq in E. subst c.
    cbn in Hc. unfold bmp. apply N.leb_le. repeat (destruct Hc as [<-|Hc]; [lia|]). destruct Hc.
  - apply N.eqb_eq in H. subst r. reflexivity.
Qed.
Lemma enc_char_bmp r : enc_char r = true -> bmp r = true.
Proof. unfold enc_char. intros H. apply andb_true_iff in H as [H _]. now apply in_range_bmp in H. Qed.

Lemma hi_and (a b : bool) : a = false -> (a && b)%bool = false.
Proof. now intros ->. Qed.

Lemma cl_tokenChar : same (cl (Nt R_tokenChar)) (one enc_token_char).
Proof.
  apply cl_rule; [reflexivity | | exact enc_token_bmp].
  apply (class_spec (types R_tokenChar) enc_token_char); [vm_compute; reflexivity|]. intros r Hr. transitivity false; [|vm_compute; reflexivity].
  destruct (enc_token_char r) eqn:E; [exfalso|reflexivity]. revert E. unfold enc_token_char, charset_char. rewrite (existsb_hi r (bs "!#$%&'*+-^_`{|}~")) by (first [lia | vm_compute; reflexivity]).
  unfold in_range. repeat match goal with |- context [(r <=? ?k)%N] => replace (r <=? k)%N with false by (symmetry; apply N.leb_gt; lia) end.
  replace (r =? 92)%N with false by (symmetry; apply N.eqb_neq; lia). rewrite !andb_false_r. discriminate.
Qed.

Lemma cl_encodedChar : same (cl (Nt R_encodedChar)) (one enc_char).
Proof.
  apply cl_rule; [reflexivity | | exact enc_char_bmp].
  apply (class_spec (types R_encodedChar) enc_char); [vm_compute; reflexivity|]. intros r Hr. transitivity false; [|vm_compute; reflexivity].
  unfold enc_char, in_range. replace (r <=? 126)%N with false by (symmetry; apply N.leb_gt; lia). now rewrite andb_false_r.
Qed.

Lemma cl_token r : body r = Nt R_token -> same (cl (Nt r)) (nonempty_all enc_token_char).
Proof.
  intros E. transitivity (cl (body r)); [apply cl_nt|]. rewrite E, cl_nt. change (body R_token) with g_token. unfold g_token. now rewrite cl_plus, cl_tokenChar, many1_all.
Qed.

Lemma lit_cat a b : same (lit a ;; lit b) (lit (a ++ b)).
Proof.
  intros x. unfold lit, bs. assert (E : map Ascii.N_of_ascii (list_ascii_of_string (a ++ b)) = map Ascii.N_of_ascii (list_ascii_of_string a) ++ map Ascii.N_of_ascii (list_ascii_of_string b)).
  { induction a as [|c a IH]; [reflexivity|]. cbn. now rewrite IH. }
  rewrite E. split; [intros (u & v & -> & -> & ->); reflexivity | intros ->; eexists _, _; eauto].
Qed.

Lemma cl_encoded : same (cl (Nt R_encodedWord)) full_encoded_word.
Proof.
  rewrite cl_nt. change (body R_encodedWord) with g_encodedWord. unfold g_encodedWord. cbn [seqs]. rewrite !cl_seq. rewrite (cl_token R_charset eq_refl), (cl_token R_encoding eq_refl).
  rewrite (cl_nt R_encodedText). change (body R_encodedText) with g_encodedText. unfold g_encodedText. rewrite cl_plus, cl_encodedChar, many1_all, cl_equal, cl_question.
  intros x. split.
  - intros (? & ? & -> & -> & (? & ? & -> & -> & (c & ? & -> & Hc & (? & ? & -> & -> & (e & ? & -> & He & (? & ? & -> & -> & (t & ? & -> & Ht & (? & ? & -> & -> & ->)))))))).
    exists c, e, t. auto.
  - intros (c & e & t & -> & Hc & He & Ht). exists (bs "="), (bs "?" ++ c ++ bs "?" ++ e ++ bs "?" ++ t ++ bs "?="). split; [reflexivity|]. split; [reflexivity|].
    exists (bs "?"), (c ++ bs "?" ++ e ++ bs "?" ++ t ++ bs "?="). split; [reflexivity|]. split; [reflexivity|]. eexists c, _. split; [reflexivity|]. split; [exact Hc|].
    eexists (bs "?"), _. split; [reflexivity|]. split; [reflexivity|]. eexists e, _. split; [reflexivity|]. split; [exact He|].
    eexists (bs "?"), _. split; [reflexivity|]. split; [reflexivity|]. eexists t, _. split; [reflexivity|]. split; [exact Ht|].
    exists (bs "?"), (bs "="). split; [reflexivity|]. split; reflexivity.
Qed.

(** ** Words and names *)
Lemma cl_gapped g P : same (cl g) P -> same (cl (Seq (Opt (Nt R_cfws)) (Seq g (Opt (Nt R_cfws))))) (ogap ;; P ;; ogap).
Proof. intros H. now rewrite !cl_seq, !cl_gap, H. Qed.

Lemma cl_word : same (cl (Nt R_word)) word_texts.
Proof.
  rewrite cl_nt. change (body R_word) with g_word. unfold g_word. cbn [alts seqs]. rewrite !cl_alt, cl_plus, (cl_gapped _ _ cl_encoded), (cl_gapped _ _ cl_atom), (cl_gapped _ _ cl_quoted).
  intros x. unfold word_texts, either. tauto.
Qed.

Definition name_piece : texts := name_start <|> lit "." <|> lit "@" <|> fold <|> comment.

Lemma piece_fold : within (optional fold) (many name_piece).
Proof. intros x [->|H]; [constructor|]. apply many_one. right; right; right; now left. Qed.
Lemma piece_comment : within comment (many name_piece).
Proof. intros x H. apply many_one. right; right; right; now right. Qed.

Lemma comments_pieces : within comments (many name_piece).
Proof.
  intros x H. induction H as [u c u' Hu Hc Hu'|u c x Hu Hc Hx IH]; repeat apply many_app; auto using piece_fold, piece_comment.
Qed.

Lemma gap_pieces : within ogap (many name_piece).
Proof. intros x [->|[H|H]]; [constructor | apply piece_fold; now right | now apply comments_pieces]. Qed.

Lemma start_piece : within name_start (many name_piece).
Proof. intros x H. apply many_one. now left. Qed.

Lemma gapped_name P : within P (name_start ;; many name_piece) -> within (ogap ;; P ;; ogap) (ogap ;; name_start ;; many name_piece).
Proof.
  intros H x (g & y & -> & Hg & (p & g' & -> & Hp & Hg')). destruct (H p Hp) as (u & v & -> & Hu & Hv). exists g, ((u ++ v) ++ g'). split; [reflexivity|]. split; [exact Hg|].
  exists u, (v ++ g'). split; [now rewrite app_assoc|]. split; [exact Hu|]. apply many_app; [exact Hv | now apply gap_pieces].
Qed.

Lemma start_alone P : within P name_start -> within P (name_start ;; many name_piece).
Proof. intros H x Hx. exists x, []. split; [symmetry; apply app_nil_r|]. split; [auto | constructor]. Qed.

Lemma name_pieces : within (ogap ;; name_start ;; many name_piece) (many name_piece).
Proof. apply cat_many; [exact gap_pieces|]. apply cat_many; [exact start_piece | apply within_refl]. Qed.

Lemma word_name : within word_texts (ogap ;; name_start ;; many name_piece).
Proof.
  assert (E : within (ogap ;; full_encoded_word ;; ogap) (ogap ;; name_start ;; many name_piece)) by (apply gapped_name, start_alone; intros y Hy; right; now right).
  intros x [H|[H|H]].
  - revert x H. apply gapped_name. intros x H. apply atom_many in H. revert x H. apply cat_mono; [intros x H; now left|]. apply many_sub. intros x H. apply many_one. left; now left.
  - revert x H. apply gapped_name, start_alone. intros x H. right; now left.
  - destruct H as (u & v & -> & Hu & Hv). destruct (E u Hu) as (g & y & -> & Hg & (s & z & -> & Hs & Hz)). rewrite <- !app_assoc. exists g, (s ++ z ++ v). split; [reflexivity|]. split; [exact Hg|].
    exists s, (z ++ v). split; [reflexivity|]. split; [exact Hs|]. apply many_app; [exact Hz|]. revert v Hv. apply many_sub. eapply within_trans; [exact E | exact name_pieces].
Qed.

Lemma ogap_nil : ogap [].
Proof. now left. Qed.

Lemma tight_gapped P : within P (ogap ;; P ;; ogap).
Proof. intros x H. exists [], x. split; [reflexivity|]. split; [exact ogap_nil|]. exists x, []. split; [symmetry; apply app_nil_r|]. split; [exact H | exact ogap_nil]. Qed.

Lemma one_atom : within (one atext_char) atom.
Proof. intros x (r & -> & Hr). split; [discriminate | now constructor]. Qed.

Lemma start_word g x : ogap g -> name_start x -> word_texts (g ++ x).
Proof.
  intros Hg H. assert (G : forall P : texts, P x -> (ogap ;; P ;; ogap) (g ++ x)).
  { intros P Hx. exists g, x. split; [reflexivity|]. split; [exact Hg|]. exists x, []. split; [symmetry; apply app_nil_r|]. split; [exact Hx | exact ogap_nil]. }
  destruct H as [H|[H|H]]; [left; apply G; now apply one_atom | right; left; now apply G | right; right]. exists (g ++ x), []. split; [symmetry; apply app_nil_r|]. split; [now apply G | constructor].
Qed.

Lemma cl_unspaced : same (cl (Nt R_unspaced)) (lit "." <|> lit "@").
Proof.
  rewrite cl_nt. change (body R_unspaced) with g_unspaced. unfold g_unspaced. rewrite (cl_cls [T_Period; T_At] (fun r => (r =? 46) || (r =? 64))%N).
  - intros x. split.
    + intros (r & -> & Hr). apply orb_true_iff in Hr as [Hr|Hr]; apply N.eqb_eq in Hr; subst r; [now left | now right].
    + intros [->| ->]; [exists 46%N | exists 64%N]; auto.
  - apply (class_spec [T_Period; T_At] (fun r => (r =? 46) || (r =? 64))%N); [vm_compute; reflexivity|]. intros r Hr. transitivity false; [|vm_compute; reflexivity].
    apply orb_false_iff. split; apply N.eqb_neq; lia.
  - intros r Hr. apply orb_true_iff in Hr as [Hr|Hr]; apply N.eqb_eq in Hr; subst r; reflexivity.
Qed.

Lemma cl_name : same (cl (Nt R_displayName)) name_texts.
Proof.
  rewrite cl_nt. change (body R_displayName) with g_displayName. unfold g_displayName. cbn [alts seqs]. rewrite !cl_alt, cl_plus, cl_seq, cl_star, !cl_alt, cl_unspaced, cl_cfws, cl_word.
  change name_texts with (ogap ;; name_start ;; many name_piece).
  assert (W : within word_texts (many name_piece)) by (eapply within_trans; [exact word_name | exact name_pieces]).
  assert (X : forall R, within R (many name_piece) -> within (word_texts ;; R) (ogap ;; name_start ;; many name_piece)).
  { intros R HR x (u & v & -> & Hu & Hv). destruct (word_name u Hu) as (g & y & -> & Hg & (s & z & -> & Hs & Hz)). rewrite <- !app_assoc. exists g, (s ++ z ++ v). split; [reflexivity|]. split; [exact Hg|].
    exists s, (z ++ v). split; [reflexivity|]. split; [exact Hs|]. apply many_app; auto. }
  apply same_within; intros x.
  - intros [H|H]; revert x H; apply X; apply many_sub; [exact W|]. intros x [H|[H|[H|H]]]; [now apply W | | now apply comments_pieces | apply piece_fold; now right].
    apply many_one. destruct H as [H|H]; right; [now left | right; now left].
  - intros (g & y & -> & Hg & (s & z & -> & Hs & Hz)). right. exists (g ++ s), z. split; [now rewrite app_assoc|]. split; [now apply start_word|].
    revert z Hz. apply many_mono. intros z [H|[H|[H|[H|H]]]]; [left | right; left; now left | right; left; now right | right; right; now right | right; right; left].
    + exact (start_word [] z ogap_nil H).
    + rewrite <- (app_nil_r z). exact (cs_one [] z [] (or_introl eq_refl) H (or_introl eq_refl)).
Qed.

(** ** Addresses *)
Lemma gapped_mono P Q : within P Q -> within (ogap ;; P ;; ogap) (ogap ;; Q ;; ogap).
Proof. intros H. apply cat_mono; [apply within_refl|]. apply cat_mono; [exact H | apply within_refl]. Qed.

Lemma cl_local : same (cl (Nt R_localPart)) local_texts.
Proof.
  rewrite cl_nt. change (body R_localPart) with g_localPart. unfold g_localPart. cbn [alts seqs]. rewrite !cl_alt, (cl_gapped _ _ cl_dot), (cl_gapped _ _ cl_quoted).
  rewrite (cl_nt R_obsLocalPart). change (body R_obsLocalPart) with g_obsLocalPart. unfold g_obsLocalPart. cbn [seqs]. rewrite cl_seq, cl_star, cl_seq, cl_period, cl_word.
  unfold local_texts. intros x. unfold either at 1 2 3. split; [|tauto]. intros [H|[H|H]]; [now left | right | now right].
  exists x, []. split; [symmetry; apply app_nil_r|]. split; [right; now left | constructor].
Qed.

Lemma bmp_dtext r : dtext_char r = true -> bmp r = true.
Proof. rewrite <- dtext_same. apply dtext_bmp. Qed.

Lemma cl_dtext : same (cl (Nt R_dtext)) (one dtext).
Proof. apply cl_rule; [reflexivity | intros r B; rewrite dtext_same; now apply dtext_class | exact dtext_bmp]. Qed.

Lemma literal_many : same literal_body (many (optional fold ;; one dtext) ;; optional fold).
Proof.
  apply same_within; intros x.
  - intros H. induction H as [u Hu|u r b Hu Hr Hb (m & f & -> & Hm & Hf)]; [exists [], u; split; [reflexivity|]; split; [constructor | exact Hu]|].
    exists ((u ++ [r]) ++ m), f. split; [now rewrite <- !app_assoc|]. split; [|exact Hf]. constructor; [|exact Hm]. exists u, [r]. split; [reflexivity|]. split; [exact Hu|]. exists r. auto.
  - intros (m & f & -> & Hm & Hf). induction Hm as [|p m (u & ? & -> & Hu & (r & -> & Hr)) Hm IH]; [now apply lb_end|]. rewrite <- !app_assoc. now apply lb_char.
Qed.

Lemma cl_literal : same (cl (Nt R_domainLiteral)) (lit "[" ;; literal_body ;; lit "]").
Proof.
  rewrite cl_nt. change (body R_domainLiteral) with g_domainLiteral. unfold g_domainLiteral. cbn [seqs]. rewrite !cl_seq, cl_star, cl_seq, !cl_ofws, cl_dtext, cl_lbracket, cl_rbracket, literal_many. now rewrite cat_assoc.
Qed.

Lemma either_cat P Q R : same ((P <|> Q) ;; R) (P ;; R <|> Q ;; R).
Proof. intros x. split; [intros (u & v & -> & [H|H] & Hv); [left | right]; exists u, v; auto | intros [(u & v & -> & H & Hv)|(u & v & -> & H & Hv)]; exists u, v; unfold either; auto]. Qed.
Lemma cat_either P Q R : same (P ;; (Q <|> R)) (P ;; Q <|> P ;; R).
Proof. intros x. split; [intros (u & v & -> & Hv & [H|H]); [left | right]; exists u, v; auto | intros [(u & v & -> & H & Hv)|(u & v & -> & H & Hv)]; exists u, v; unfold either; auto]. Qed.

Lemma cl_domain : same (cl (Nt R_domain)) domain_texts.
Proof.
  rewrite cl_nt. change (body R_domain) with g_domain. unfold g_domain. cbn [alts seqs]. rewrite !cl_alt, (cl_gapped _ _ cl_dot), (cl_gapped _ _ cl_literal), (cl_gapped (Nt R_obsDomain) _ (reflexivity _)).
  unfold domain_texts. rewrite either_cat, cat_either. intros x. unfold either at 1 2 3. split; [|tauto]. intros [H|[H|H]]; [now left | now right | left]. revert x H. apply gapped_mono, cl_obsDomain.
Qed.

Lemma cl_port : same (cl (Nt R_port)) (digit ;; many digit).
Proof. rewrite cl_nt. change (body R_port) with g_port. unfold g_port. now rewrite cl_plus, cl_digit. Qed.

Lemma cl_spec : same (cl (Nt R_addrSpec)) spec_texts.
Proof.
  rewrite cl_nt. change (body R_addrSpec) with g_addrSpec. unfold g_addrSpec. cbn [seqs]. rewrite !cl_seq, cl_opt, cl_seq, cl_local, cl_at, cl_domain, cl_colon, cl_port. reflexivity.
Qed.

Definition filler : texts := fold <|> comment <|> lit ",".

Lemma filler_fold : within (optional fold) (many filler).
Proof. intros x [->|H]; [constructor|]. apply many_one. now left. Qed.
Lemma filler_comment : within comment (many filler).
Proof. intros x H. apply many_one. right; now left. Qed.

Lemma filler_many : same (many ((comments <|> fold) <|> lit ",")) (many filler).
Proof.
  apply same_within; apply many_sub; intros x.
  - intros [[H|H]|H].
    + induction H as [u c u' Hu Hc Hu'|u c x Hu Hc Hx IH]; repeat apply many_app; auto using filler_fold, filler_comment.
    + apply filler_fold. now right.
    + apply many_one. right; now right.
  - intros [H|[H|H]]; apply many_one; [left; now right | left; left | now right].
    rewrite <- (app_nil_r x). exact (cs_one [] x [] (or_introl eq_refl) H (or_introl eq_refl)).
Qed.

Lemma cl_route : same (cl (Nt R_obsRoute)) route_texts.
Proof.
  rewrite cl_nt. change (body R_obsRoute) with g_obsRoute. unfold g_obsRoute. cbn [seqs]. rewrite cl_seq, cl_colon.
  rewrite (cl_nt R_obsDomainList). change (body R_obsDomainList) with g_obsDomainList. unfold g_obsDomainList. cbn [seqs alts].
  rewrite !cl_seq, !cl_star, !cl_seq, cl_gap, cl_opt, cl_seq, cl_alt, cl_at, cl_comma, cl_domain, cl_cfws, filler_many. rewrite !cat_assoc. reflexivity.
Qed.

Lemma cl_angle : same (cl (Nt R_angleAddr)) angle_texts.
Proof.
  rewrite cl_nt. change (body R_angleAddr) with g_angleAddr. unfold g_angleAddr. cbn [alts seqs]. rewrite cl_alt.
  rewrite (cl_nt R_obsAngleAddr). change (body R_obsAngleAddr) with g_obsAngleAddr. unfold g_obsAngleAddr. cbn [seqs].
  rewrite !cl_seq, !cl_gap, (cl_opt (Nt R_addrSpec)), cl_less, cl_greater, cl_spec, cl_route. unfold angle_texts. rewrite either_cat, !cat_either, !cat_assoc. reflexivity.
Qed.

Lemma cl_mailbox : same (cl (Nt R_mailbox)) mailbox_texts.
Proof.
  rewrite cl_nt. change (body R_mailbox) with g_mailbox. unfold g_mailbox. cbn [alts]. rewrite cl_alt, cl_spec, (cl_nt R_nameAddr). change (body R_nameAddr) with g_nameAddr. unfold g_nameAddr. cbn [seqs].
  rewrite cl_seq, cl_opt, cl_name, cl_angle. reflexivity.
Qed.

(** ** Lists *)

(** entries separated by commas, some of which are empty *)
Section entries.
  Variable P : texts.

  Definition entries : texts := (P <|> ogap) ;; many (lit "," ;; (P <|> ogap)).
  Definition gaps_only : texts := ogap ;; many (lit "," ;; ogap).
  Definition with_entry : texts := many (ogap ;; lit ",") ;; P ;; many (lit "," ;; (P <|> ogap)).

  Lemma gap_comma g x : ogap g -> many (lit "," ;; ogap) x -> exists y z, g ++ x = y ++ z /\ many (ogap ;; lit ",") y /\ ogap z.
  Proof.
    intros Hg Hx. revert g Hg. induction Hx as [|u v (? & o & -> & -> & Ho) Hv IH]; intros g Hg.
    - exists [], g. rewrite app_nil_r. split; [reflexivity|]. split; [constructor | exact Hg].
    - destruct (IH o Ho) as (y & z & E & Hy & Hz). exists ((g ++ bs ",") ++ y), z. split; [|split; [|exact Hz]].
      + rewrite <- !app_assoc. rewrite <- E. reflexivity.
      + constructor; [exists g, (bs ","); split; [reflexivity|]; split; [exact Hg | reflexivity] | exact Hy].
  Qed.

  Lemma gaps_junk : same gaps_only (many (ogap ;; lit ",") ;; ogap).
  Proof.
    apply same_within; intros x.
    - intros (g & y & -> & Hg & Hy). destruct (gap_comma g y Hg Hy) as (u & v & E & Hu & Hv). exists u, v. auto.
    - intros (u & v & -> & Hu & Hv). induction Hu as [|p u (g & ? & -> & Hg & ->) Hu IH].
      + exists v, []. split; [symmetry; apply app_nil_r|]. split; [exact Hv | constructor].
      + destruct IH as (g' & y & E & Hg' & Hy). exists g, (bs "," ++ u ++ v). split; [now rewrite <- !app_assoc|]. split; [exact Hg|]. rewrite E. rewrite app_assoc. constructor; [exists (bs ","), g'; split; [reflexivity|]; split; [reflexivity | exact Hg'] | exact Hy].
  Qed.

  Lemma entries_split : same entries (gaps_only <|> with_entry).
  Proof.
    apply same_within; intros x.
    - intros (e & y & -> & He & Hy). revert e He. induction Hy as [|u v (? & e' & -> & -> & He') Hv IH]; intros e He.
      + destruct He as [He|He]; [right | left].
        * exists [], (e ++ []). split; [reflexivity|]. split; [constructor|]. exists e, []. split; [reflexivity|]. split; [exact He | constructor].
        * exists e, []. split; [reflexivity|]. split; [exact He | constructor].
      + destruct He as [He|He].
        * right. eexists [], _. split; [reflexivity|]. split; [constructor|]. eexists e, _. split; [reflexivity|]. split; [exact He|]. constructor; [|exact Hv]. exists (bs ","), e'. split; [reflexivity|]. split; [reflexivity | exact He'].
        * rewrite <- app_assoc. destruct (IH e' He') as [(g & w & E & Hg & Hw)|(j & w & E & Hj & Hw)]; rewrite E.
          -- left. exists e, (bs "," ++ g ++ w). split; [reflexivity|]. split; [exact He|]. rewrite app_assoc. constructor; [exists (bs ","), g; split; [reflexivity|]; split; [reflexivity | exact Hg] | exact Hw].
          -- right. exists ((e ++ bs ",") ++ j), w. split; [now rewrite <- !app_assoc|]. split; [|exact Hw]. constructor; [exists e, (bs ","); split; [reflexivity|]; split; [exact He | reflexivity] | exact Hj].
    - intros [(g & y & -> & Hg & Hy)|(j & y & -> & Hj & (e & z & -> & He & Hz))].
      + exists g, y. split; [reflexivity|]. split; [now right|]. revert Hy. apply many_mono, cat_mono; [apply within_refl|]. intros u Hu. now right.
      + induction Hj as [|p j (g & ? & -> & Hg & ->) Hj IH]; [exists e, z; split; [reflexivity|]; split; [now left | exact Hz]|].
        destruct IH as (e' & w & E & He' & Hw). exists g, (bs "," ++ e' ++ w). split; [rewrite <- !app_assoc, E; reflexivity|]. split; [now right|].
        rewrite app_assoc. constructor; [exists (bs ","), e'; split; [reflexivity|]; split; [reflexivity | exact He'] | exact Hw].
  Qed.

  (** the entries after the first one in the grammar's way *)
  Lemma opt_entry : same (optional (P <|> (comments <|> fold))) (P <|> ogap).
  Proof. intros x. unfold optional, either, ogap. tauto. Qed.
End entries.

Lemma cl_members : same (cl (Opt (Nt R_groupList))) (entries mailbox_texts).
Proof.
  rewrite entries_split, gaps_junk, cl_opt, (cl_nt R_groupList). change (body R_groupList) with g_groupList. unfold g_groupList. cbn [alts]. rewrite !cl_alt.
  rewrite (cl_nt R_mailboxList). change (body R_mailboxList) with g_mailboxList. unfold g_mailboxList. cbn [alts seqs]. rewrite cl_alt.
  rewrite (cl_nt R_obsMboxList). change (body R_obsMboxList) with g_obsMboxList. unfold g_obsMboxList. cbn [alts seqs].
  rewrite (cl_nt R_obsGroupList). change (body R_obsGroupList) with g_obsGroupList. unfold g_obsGroupList. cbn [alts seqs].
  rewrite !cl_seq, cl_plus, !cl_star, !cl_seq, cl_gap, cl_opt, cl_alt, cl_comma, cl_mailbox, cl_cfws, opt_entry.
  fold (with_entry mailbox_texts). set (J := ogap ;; lit ","). set (M := mailbox_texts).
  apply same_within; intros x.
  - intros [->|[[H|H]|[H|H]]].
    + left. exists [], []. split; [reflexivity|]. split; [constructor | exact ogap_nil].
    + right. destruct H as (u & v & -> & Hu & Hv). exists [], (u ++ v). split; [reflexivity|]. split; [constructor|]. exists u, v. split; [reflexivity|]. split; [exact Hu|].
      revert v Hv. apply many_mono, cat_mono; [apply within_refl|]. intros y Hy. now left.
    + now right.
    + left. exists [], x. split; [reflexivity|]. split; [constructor|]. destruct H; [right; now right | right; now left].
    + left. destruct H as (u & v & -> & (a & b & -> & Ha & Hb) & Hv). exists (a ++ b), v. split; [reflexivity|]. split; [now constructor | exact Hv].
  - intros [(j & g & -> & Hj & Hg)|H]; [|right; left; now right]. destruct Hj as [|a b Ha Hb].
    + destruct Hg as [->|[Hg|Hg]]; [now left | right; right; left; now right | right; right; left; now left].
    + right; right; right. exists (a ++ b), g. split; [reflexivity|]. split; [exists a, b; auto | exact Hg].
Qed.

Lemma cl_group : same (cl (Nt R_group)) group_texts.
Proof.
  rewrite cl_nt. change (body R_group) with g_group. unfold g_group. cbn [seqs]. rewrite !cl_seq, cl_gap, cl_members, !cl_opt, cl_dquote, cl_semicolon, cl_colon, cl_name.
  unfold group_texts, entries. now rewrite !cat_assoc.
Qed.

Lemma cl_address : same (cl (Nt R_address)) one_address.
Proof. rewrite cl_nt. change (body R_address) with g_address. unfold g_address. cbn [alts]. now rewrite cl_alt, cl_mailbox, cl_group. Qed.

Lemma cl_sep : same (cl (Cls [T_Comma; T_Semicolon])) (lit "," <|> lit ";").
Proof.
  rewrite (cl_cls [T_Comma; T_Semicolon] (fun r => (r =? 44) || (r =? 59))%N).
  - intros x. split.
    + intros (r & -> & Hr). apply orb_true_iff in Hr as [Hr|Hr]; apply N.eqb_eq in Hr; subst r; [now left | now right].
    + intros [->| ->]; [exists 44%N | exists 59%N]; auto.
  - apply (class_spec [T_Comma; T_Semicolon] (fun r => (r =? 44) || (r =? 59))%N); [vm_compute; reflexivity|]. intros r Hr. transitivity false; [|vm_compute; reflexivity].
    apply orb_false_iff. split; apply N.eqb_neq; lia.
  - intros r Hr. apply orb_true_iff in Hr as [Hr|Hr]; apply N.eqb_eq in Hr; subst r; reflexivity.
Qed.

(** what precedes the end of the input *)
Definition before_eof (g : gexp) : texts := fun x => bmps x /\ lang g (toks x ++ [eof_tok]).

Lemma eof_not x : bmps x -> ~ In eof_tok (toks x).
Proof.
  intros B H. apply in_map_iff in H as (r & E & Hr). unfold bmps in B. rewrite Forall_forall in B. specialize (B r Hr). apply tok_of_lexed in B. rewrite E in B. vm_compute in B. discriminate B.
Qed.

Lemma before_tok : same (before_eof (Tok T_EOF)) (fun x => x = []).
Proof.
  intros x. split.
  - intros [_ H]. apply lang_cls in H as (t & E & _). destruct x as [|r x]; [reflexivity|]. exfalso. destruct x; discriminate E.
  - intros ->. split; [constructor|]. apply lang_cls_i. now left.
Qed.

Lemma before_seq a b : nullable b = false -> same (before_eof (Seq a b)) (cl a ;; before_eof b).
Proof.
  intros N. apply same_within; intros x.
  - intros [B H]. apply lang_seq in H as (u & v & E & Hu & Hv).
    destruct (exists_last (l := v)) as (v' & t & ->); [intros ->; apply lang_nullable in Hv; congruence|].
    rewrite app_assoc in E. apply app_inj_tail in E as [E <-]. apply toks_cut in E as (x1 & x2 & -> & <- & <-). apply bmps_app in B as [B1 B2]. exists x1, x2. unfold cl, before_eof. auto.
  - intros (u & v & -> & [Bu Hu] & [Bv Hv]). split; [now apply bmps_app|]. rewrite toks_app, <- app_assoc. now apply lang_seq_i.
Qed.

Lemma before_alt a b : same (before_eof (Alt a b)) (before_eof a <|> before_eof b).
Proof. intros x. unfold before_eof, either. rewrite lang_alt. tauto. Qed.

Lemma before_nt r : same (before_eof (Nt r)) (before_eof (body r)).
Proof. intros x. unfold before_eof. now rewrite lang_nt. Qed.

Lemma cat_nil P : same (P ;; (fun x => x = [])) P.
Proof. intros x. split; [intros (u & v & -> & H & ->); now rewrite app_nil_r | intros H; exists x, []; rewrite app_nil_r; auto]. Qed.

Lemma before_addressList : same (before_eof (Nt R_addressList)) address_list_texts.
Proof.
  rewrite before_nt. change (body R_addressList) with g_addressList. unfold g_addressList. cbn [alts seqs]. rewrite before_alt, !before_seq by reflexivity. rewrite before_tok, !cat_nil.
  rewrite cl_star, cl_seq, cl_sep, cl_address. rewrite (cl_nt R_obsAddrList). change (body R_obsAddrList) with g_obsAddrList. unfold g_obsAddrList. cbn [alts seqs].
  rewrite !cl_seq, !cl_star, !cl_seq, cl_gap, cl_opt, cl_alt, cl_comma, cl_address, cl_cfws, opt_entry. reflexivity.
Qed.
