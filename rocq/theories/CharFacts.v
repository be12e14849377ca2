(** Token types and the characters they stand for; the grammar's character-level rules as character
    sets. *)
From Coq Require Import String List NArith ZArith Bool Arith Lia.
From Verif Require Import Lexer Grammar Utf8 Strs Mime GoTime Parser Walker Api Spec ParserFacts
  WalkerFacts Static Cfws LangFacts LexFacts Utf8Facts DateSpec First AddrSpec AddrSem.
Import ListNotations.

Definition ascii_list : list N := Eval vm_compute in map N.of_nat (seq 0 128).

Lemma ascii_forall (P : N -> bool) : forallb P ascii_list = true -> forall c, ascii c -> P c = true.
Proof.
  intros H c Hc. rewrite forallb_forall in H. apply H. change ascii_list with (map N.of_nat (seq 0 128)).
  apply in_map_iff. exists (N.to_nat c). unfold ascii in Hc. split; [lia|]. apply in_seq. lia.
Qed.

Lemma lex_nonascii r : (128 <= r)%N -> bmp r = true -> tt (tok_of r) = T_UTF8NonAscii.
Proof.
  unfold bmp. intros H1 H2. apply N.leb_le in H2. unfold tok_of, lex_rune. cbn [tt].
  repeat match goal with
         | |- context [(r =? ?k)%N] => replace (r =? k)%N with false by (symmetry; apply N.eqb_neq; lia)
         end.
  unfold in_range.
  repeat match goal with
         | |- context [(?k <=? r)%N] => replace (k <=? r)%N with true by (symmetry; apply N.leb_le; lia)
         end.
  replace (r <=? 8)%N with false by (symmetry; apply N.leb_gt; lia).
  replace (r <=? 31)%N with false by (symmetry; apply N.leb_gt; lia).
  replace (r <=? 57)%N with false by (symmetry; apply N.leb_gt; lia).
  replace (r <=? 65535)%N with true by (symmetry; apply N.leb_le; lia). reflexivity.
Qed.

(** [tys] is the set of the types of the characters [f]. *)
Definition class_ok (tys : list ttype) (f : rune -> bool) : bool :=
  forallb (fun c => Bool.eqb (memb (tt (tok_of c)) tys) (f c)) ascii_list.

Lemma class_spec tys f : class_ok tys f = true ->
  (forall r, (128 <= r <= 65535)%N -> f r = memb T_UTF8NonAscii tys) ->
  forall r, bmp r = true -> memb (tt (tok_of r)) tys = f r.
Proof.
  intros H1 H2 r Hr. destruct (N.lt_ge_cases r 128) as [H|H].
  - apply Bool.eqb_prop. exact (ascii_forall _ H1 r H).
  - rewrite H2 by (unfold bmp in Hr; apply N.leb_le in Hr; lia). now rewrite lex_nonascii.
Qed.

(** lexed tokens are the tokens of their characters *)
Lemma lexed_bmp t : lexed t -> bmp (tr t) = true.
Proof.
  unfold lexed. intros H. destruct (bmp (tr t)) eqn:E; [reflexivity|]. rewrite (lex_not_bmp _ E) in H. discriminate.
Qed.

Lemma lexed_tok t : lexed t -> t = tok_of (tr t).
Proof. destruct t as [ty r]. unfold lexed, tok_of. cbn. now intros ->. Qed.

Lemma lexed_toks w : Forall lexed w -> w = toks (map tr w).
Proof. induction 1 as [|t w Ht H IH]; [reflexivity|]. cbn [map toks]. f_equal; [now apply lexed_tok | exact IH]. Qed.

Lemma lexed_text t : lexed t -> tok_text t = encode1 (tr t).
Proof.
  intros H. unfold tok_text. apply lex_types in H as [H _]. destruct (N.eqb_spec (tt t) T_EOF); [contradiction|reflexivity].
Qed.

Lemma text_lexed w : Forall lexed w -> text w = encode (map tr w).
Proof.
  induction 1 as [|t w Ht H IH]; [reflexivity|]. unfold text, encode in *. cbn [flat_map map]. now rewrite IH, lexed_text.
Qed.

Lemma toks_lexed_bmp rs : Forall (fun r => bmp r = true) rs -> Forall lexed (toks rs).
Proof. induction 1; constructor; [now apply tok_of_lexed | assumption]. Qed.

Lemma text_toks rs : Forall (fun r => bmp r = true) rs -> text (toks rs) = encode rs.
Proof. intros H. rewrite text_lexed by now apply toks_lexed_bmp. now rewrite map_tr_tok_of. Qed.

Ltac hi_range := intros rr Hrr; unfold in_range;
  repeat match goal with
  | |- context [(?k <=? rr)%N] => first [ replace (k <=? rr)%N with true by (symmetry; apply N.leb_le; lia) | replace (k <=? rr)%N with false by (symmetry; apply N.leb_gt; lia) ]
  | |- context [(rr <=? ?k)%N] => first [ replace (rr <=? k)%N with true by (symmetry; apply N.leb_le; lia) | replace (rr <=? k)%N with false by (symmetry; apply N.leb_gt; lia) ]
  end.

Lemma existsb_hi r l : (128 <= r)%N -> forallb (fun c => (c <? 128)%N) l = true -> existsb (N.eqb r) l = false.
Proof.
  intros Hr H. induction l as [|c l IH]; [reflexivity|]. cbn in *. apply andb_true_iff in H as [H1 H2].
  apply N.ltb_lt in H1. rewrite IH by assumption. destruct (N.eqb_spec r c); [lia | reflexivity].
Qed.

Lemma atext_class r : bmp r = true -> memb (tt (tok_of r)) (types R_atext) = atext_char r.
Proof.
  apply class_spec; [vm_compute; reflexivity|]. unfold atext_char. hi_range. rewrite existsb_hi by (lia || reflexivity). reflexivity.
Qed.

(** characters of domain literals without the white space *)
Definition dtext_char (r : rune) : bool :=
  ((in_range 33 126 r || in_range 128 65535 r) && negb (existsb (N.eqb r) (bs "[]\")))%N.

Lemma dtext_class r : bmp r = true -> memb (tt (tok_of r)) (types R_dtext) = dtext_char r.
Proof.
  apply class_spec; [vm_compute; reflexivity|]. unfold dtext_char. hi_range. rewrite existsb_hi by (lia || reflexivity). reflexivity.
Qed.

Definition ws_char (r : rune) : bool := existsb (N.eqb r) [32; 9; 13; 10]%N.

Lemma ws_class r : bmp r = true -> memb (tt (tok_of r)) [T_SP; T_TAB; T_CR; T_LF] = ws_char r.
Proof.
  apply class_spec; [vm_compute; reflexivity|]. unfold ws_char. intros r' Hr. rewrite existsb_hi by (lia || reflexivity). reflexivity.
Qed.

Lemma digit_class r : bmp r = true -> memb (tt (tok_of r)) [T_Digit] = digit_char r.
Proof. apply class_spec; [vm_compute; reflexivity|]. unfold digit_char. hi_range. reflexivity. Qed.

Lemma class_lexed tys f t : (forall r, bmp r = true -> memb (tt (tok_of r)) tys = f r) -> lexed t -> In (tt t) tys -> f (tr t) = true.
Proof. intros H L I. rewrite <- H by now apply lexed_bmp. rewrite <- lexed_tok by assumption. now apply memb_In. Qed.

Lemma class_In tys f r : (forall r, bmp r = true -> memb (tt (tok_of r)) tys = f r) -> bmp r = true -> f r = true -> In (tt (tok_of r)) tys.
Proof. intros H L I. apply memb_In. rewrite H by assumption. exact I. Qed.

(** single types *)
Lemma tok_char ty c t : class_ok [ty] (N.eqb c) = true -> (c < 128)%N -> ty <> T_UTF8NonAscii -> lexed t -> tt t = ty -> tr t = c.
Proof.
  intros H Hc Hty L E.
  assert (X : N.eqb c (tr t) = true).
  { apply (class_lexed [ty]); [|exact L | left; auto]. intros r. apply class_spec; [exact H|].
    intros r' Hr. unfold memb, existsb. destruct (N.eqb_spec T_UTF8NonAscii ty) as [X|X]; [destruct Hty; auto|]. apply N.eqb_neq. lia. }
  apply N.eqb_eq in X. auto.
Qed.

(** ** Languages of the character rules *)
Lemma single_complete r : implb (single_rule r) (forallb (fun ty => accepts 60 [Nt r] [mkTok ty 0%N]) (types r)) = true.
Proof.
  apply (all_rules_forall (fun r => implb (single_rule r) (forallb (fun ty => accepts 60 [Nt r] [mkTok ty 0%N]) (types r)))).
  vm_compute. reflexivity.
Qed.

Lemma single_lang_i r t : single_rule r = true -> In (tt t) (types r) -> lang (Nt r) [t].
Proof.
  intros S I. pose proof (single_complete r) as H. rewrite S in H. cbn [implb] in H. rewrite forallb_forall in H.
  apply lang_types with (w' := [mkTok (tt t) 0%N]); [reflexivity|]. apply (lang_check 60). auto.
Qed.

Lemma star_single_i r w : single_rule r = true -> Forall (fun t => In (tt t) (types r)) w -> lang (Star (Nt r)) w.
Proof.
  intros S H. induction H as [|t w Ht H IH]; [apply lang_star_nil|]. change (t :: w) with ([t] ++ w).
  apply lang_star_cons; [now apply single_lang_i | exact IH].
Qed.

Lemma star_single r w : single_rule r = true -> lang (Star (Nt r)) w -> Forall (fun t => In (tt t) (types r)) w.
Proof.
  intros S H. apply lang_star_inv in H as [us [-> H]]. induction H as [|u us Hu H IH]; [constructor|]. cbn [concat].
  apply single_lang in Hu as [t [-> Ht]]; [|assumption]. now constructor.
Qed.

Lemma plus_single_i r w : single_rule r = true -> w <> [] -> Forall (fun t => In (tt t) (types r)) w -> lang (Plus (Nt r)) w.
Proof.
  intros S N H. destruct H as [|t w Ht H]; [congruence|]. change (t :: w) with ([t] ++ w).
  apply lang_seq_i; [now apply single_lang_i | now apply star_single_i].
Qed.

Lemma plus_single r w : single_rule r = true -> lang (Plus (Nt r)) w -> w <> [] /\ Forall (fun t => In (tt t) (types r)) w.
Proof.
  intros S H. apply lang_seq in H as [u [v [-> [H1 H2]]]]. apply single_lang in H1 as [t [-> Ht]]; [|assumption].
  split; [discriminate|]. constructor; [assumption|]. now apply star_single.
Qed.

(** atoms *)
Lemma atext_word w : Forall lexed w -> w <> [] -> Forall (fun t => In (tt t) (types R_atext)) w -> atom (map tr w).
Proof.
  intros L N H. split; [destruct w; [congruence | discriminate]|]. rewrite Forall_map. rewrite Forall_forall in *.
  intros t Ht. apply (class_lexed (types R_atext) atext_char); auto using atext_class.
Qed.

Lemma atom_bmp a : atom a -> Forall (fun r => bmp r = true) a.
Proof.
  intros [_ H]. eapply Forall_impl; [|exact H]. intros r Hr. unfold bmp. apply N.leb_le.
  unfold atext_char in Hr. rewrite !orb_true_iff, !in_range_spec in Hr.
  destruct Hr as [Hr|Hr]; [lia|]. apply existsb_exists in Hr as [c [Hc E]]. apply N.eqb_eq in E. subst c.
  assert (X : forallb (fun c => (c <? 128)%N) (bs "!#$%&'*+-/=?^_`{|}~") = true) by reflexivity.
  rewrite forallb_forall in X. specialize (X r Hc). apply N.ltb_lt in X. lia.
Qed.

Lemma atom_types a : atom a -> Forall (fun t => In (tt t) (types R_atext)) (toks a).
Proof.
  intros H. pose proof (atom_bmp a H) as B. destruct H as [_ H]. unfold toks. rewrite Forall_map. rewrite Forall_forall in *. intros r Hr.
  apply (class_In (types R_atext) atext_char); auto using atext_class.
Qed.

Lemma lang_atom w : Forall lexed w -> lang (Nt R_atom) w -> atom (map tr w).
Proof. intros L H. apply lang_nt in H. apply plus_single in H as [N H]; [|reflexivity]. now apply atext_word. Qed.

Lemma lang_atom_i a : atom a -> lang (Nt R_atom) (toks a).
Proof.
  intros H. apply lang_nt_i. apply plus_single_i; [reflexivity | | now apply atom_types]. destruct H as [N _].
  destruct a; [destruct (N eq_refl) | discriminate].
Qed.

(** dot-atoms *)
Lemma dots_shape w : Forall lexed w -> lang (Star (seqs [Tok T_Period; Plus (Nt R_atext)])) w ->
  forall a, atom a -> exists l, Forall atom l /\ a ++ map tr w = join (bs ".") (a :: l).
Proof.
  intros L H. apply lang_star_inv in H as [us [-> H]]. induction H as [|u us Hu H IH]; intros a Ha.
  - exists []. cbn. rewrite app_nil_r. auto.
  - cbn [concat] in L |- *. apply Forall_app in L as [L1 L2]. cbn [seqs] in Hu. apply lang_seq in Hu as [p [v [-> [Hp Hv]]]].
    apply lang_cls in Hp as [t [-> [Ht|[]]]]. apply Forall_app in L1 as [L0 L1]. inversion L0; subst.
    apply plus_single in Hv as [N Hv]; [|reflexivity]. pose proof (atext_word v L1 N Hv) as Av.
    destruct (IH L2 _ Av) as [l [Hl E]]. exists (map tr v :: l). split; [now constructor|].
    rewrite map_app, map_app. cbn [map app]. rewrite (tok_char T_Period 46%N t) by (reflexivity || discriminate || auto).
    change (join (bs ".") (a :: map tr v :: l)) with (a ++ bs "." ++ join (bs ".") (map tr v :: l)). rewrite <- E. reflexivity.
Qed.

Lemma lang_dotAtom w : Forall lexed w -> lang (Nt R_dotAtom) w -> dot_atom (map tr w).
Proof.
  intros L H. apply lang_nt in H. change (body R_dotAtom) with g_dotAtom in H. unfold g_dotAtom in H. cbn [seqs] in H.
  apply lang_seq in H as [u [v [-> [Hu H]]]]. apply lang_seq in H as [v1 [v2 [-> [H1 H2]]]].
  apply Forall_app in L as [L1 L2]. apply Forall_app in L2 as [L2 L3].
  apply plus_single in Hu as [N Hu]; [|reflexivity]. pose proof (atext_word u L1 N Hu) as Au.
  destruct (dots_shape v1 L2 H1 _ Au) as [l [Hl E]]. exists (map tr u :: l). split; [discriminate|]. split; [now constructor|].
  rewrite !map_app, app_assoc, E. apply lang_opt_inv in H2 as [H2| ->].
  - apply lang_cls in H2 as [t [-> [Ht|[]]]]. right. inversion L3; subst. cbn [map].
    rewrite (tok_char T_Period 46%N t) by (reflexivity || discriminate || auto). reflexivity.
  - left. cbn [map]. now rewrite app_nil_r.
Qed.

Lemma atom_join_bmp l : Forall atom l -> Forall (fun r => bmp r = true) (join (bs ".") l).
Proof.
  induction 1 as [|a l Ha H IH]; [constructor|]. destruct l as [|b l]; [now apply atom_bmp|].
  change (join (bs ".") (a :: b :: l)) with (a ++ bs "." ++ join (bs ".") (b :: l)).
  apply Forall_app. split; [now apply atom_bmp|]. apply Forall_app. split; [repeat constructor | exact IH].
Qed.

Lemma dot_atom_bmp d : dot_atom d -> Forall (fun r => bmp r = true) d.
Proof.
  intros [l [_ [H [-> | ->]]]]; [now apply atom_join_bmp|]. apply Forall_app. split; [now apply atom_join_bmp | repeat constructor].
Qed.

Lemma lang_dots_i a l : atom a -> Forall atom l ->
  exists w, toks (join (bs ".") (a :: l)) = toks a ++ w /\ lang (Star (seqs [Tok T_Period; Plus (Nt R_atext)])) w.
Proof.
  intros Ha H. revert a Ha. induction H as [|b l Hb H IH]; intros a Ha.
  - exists []. cbn [join]. rewrite app_nil_r. split; [reflexivity | apply lang_star_nil].
  - destruct (IH b Hb) as [w [E Hw]]. exists (toks (bs ".") ++ toks b ++ w).
    change (join (bs ".") (a :: b :: l)) with (a ++ bs "." ++ join (bs ".") (b :: l)).
    rewrite !toks_app, E. split; [reflexivity|]. rewrite app_assoc. apply lang_star_cons; [|exact Hw].
    apply lang_seq_i; [apply lang_cls_i; now left|]. apply plus_single_i; [reflexivity | | now apply atom_types].
    destruct Hb as [N _]. destruct b; [destruct (N eq_refl) | discriminate].
Qed.

Lemma lang_dotAtom_i d : dot_atom d -> lang (Nt R_dotAtom) (toks d).
Proof.
  intros [l [N [H E]]]. destruct H as [|a l Ha H]; [congruence|]. destruct (lang_dots_i a l Ha H) as [w [Ew Hw]].
  apply lang_nt_i. change (body R_dotAtom) with g_dotAtom. unfold g_dotAtom. cbn [seqs].
  assert (PA : lang (Plus (Nt R_atext)) (toks a)).
  { apply plus_single_i; [reflexivity | | now apply atom_types]. destruct Ha as [N' _]. destruct a; [destruct (N' eq_refl) | discriminate]. }
  destruct E as [-> | ->].
  - rewrite Ew, <- (app_nil_r w). apply lang_seq_i; [exact PA|]. apply lang_seq_i; [exact Hw | apply lang_opt_none].
  - rewrite toks_app, Ew, <- app_assoc. apply lang_seq_i; [exact PA|]. apply lang_seq_i; [exact Hw | apply lang_opt_some, lang_cls_i; now left].
Qed.

Lemma lang_obsDomain w : Forall lexed w -> lang (Nt R_obsDomain) w -> dot_atom (map tr w).
Proof.
  intros L H. apply lang_nt in H. change (body R_obsDomain) with g_obsDomain in H. unfold g_obsDomain in H. cbn [seqs] in H.
  apply lang_seq in H as [u [v [-> [Hu H]]]]. apply Forall_app in L as [L1 L2]. apply lang_atom in Hu; [|assumption].
  assert (H' : lang (Star (seqs [Tok T_Period; Plus (Nt R_atext)])) v).
  { apply lang_star_inv in H as [us [-> H]]. apply lang_star_concat. eapply Forall_impl; [|exact H]. intros x Hx.
    apply lang_seq in Hx as [p [y [-> [Hp Hy]]]]. apply lang_seq_i; [exact Hp|]. apply lang_nt in Hy. exact Hy. }
  destruct (dots_shape v L2 H' _ Hu) as [l [Hl E]]. exists (map tr u :: l). split; [discriminate|]. split; [now constructor|].
  left. now rewrite map_app, E.
Qed.

(** domain literals and ports *)
Lemma fws_types w : lang (Opt (Nt R_fws)) w -> Forall (fun t => In (tt t) [T_SP; T_TAB; T_CR; T_LF]) w.
Proof.
  intros H. apply lang_opt_inv in H as [H| ->]; [|constructor]. apply alphabet_lang in H.
  eapply Forall_impl; [|exact H]. intros t Ht. eapply (subset_In _ [T_SP; T_TAB; T_CR; T_LF]); [|exact Ht]. vm_compute. reflexivity.
Qed.

Lemma fws_ws w : Forall lexed w -> lang (Opt (Nt R_fws)) w -> Forall (fun r => ws_char r = true) (map tr w).
Proof.
  intros L H. apply fws_types in H. rewrite Forall_map. rewrite Forall_forall in *. intros t Ht.
  apply (class_lexed [T_SP; T_TAB; T_CR; T_LF] ws_char); auto using ws_class.
Qed.

Lemma lang_domainLiteral w : Forall lexed w -> lang (Nt R_domainLiteral) w -> bracketed (map tr w).
Proof.
  intros L H. apply lang_nt in H. change (body R_domainLiteral) with g_domainLiteral in H. unfold g_domainLiteral in H. cbn [seqs] in H.
  apply lang_seq in H as [u [v [-> [Hu H]]]]. apply lang_seq in H as [v1 [v2 [-> [H1 H]]]]. apply lang_seq in H as [v3 [v4 [-> [H3 H4]]]].
  apply lang_cls in Hu as [t1 [-> [T1|[]]]]. apply lang_cls in H4 as [t2 [-> [T2|[]]]].
  apply Forall_app in L as [L1 L]. apply Forall_app in L as [L2 L]. apply Forall_app in L as [L3 L4]. inversion L1; inversion L4; subst.
  exists (map tr (v1 ++ v3)). split.
  - rewrite !map_app. cbn [map]. rewrite (tok_char T_LBracket 91%N t1), (tok_char T_RBracket 93%N t2) by (reflexivity || discriminate || auto).
    rewrite <- app_assoc. reflexivity.
  - rewrite map_app, Forall_app. assert (W : forall w, Forall (fun r => ws_char r = true) w -> Forall (fun r => literal_char r = true) w).
    { intros x Hx. eapply Forall_impl; [|exact Hx]. intros r Hr. unfold literal_char. unfold ws_char in Hr. now rewrite Hr. }
    split; [|apply W, fws_ws; assumption]. apply lang_star_inv in H1 as [us [-> H1]].
    clear - W L2 H1. induction H1 as [|u us Hu H IH]; [constructor|]. cbn [concat] in L2 |- *. apply Forall_app in L2 as [L1 L2].
    rewrite map_app, Forall_app. split; [|auto]. apply lang_seq in Hu as [p [y [-> [Hp Hy]]]].
    apply Forall_app in L1 as [L0 L1]. apply single_lang in Hy as [t [-> Ht]]; [|reflexivity]. rewrite map_app, Forall_app.
    split; [apply W, fws_ws; assumption|]. inversion L1; subst. constructor; [|constructor].
    pose proof (class_lexed (types R_dtext) dtext_char t dtext_class H2 Ht) as D. unfold literal_char. fold (dtext_char (tr t)). rewrite D. apply orb_true_r.
Qed.

Lemma lang_port w : Forall lexed w -> lang (Nt R_port) w -> w <> [] /\ Forall (fun r => digit_char r = true) (map tr w).
Proof.
  intros L H. apply lang_nt in H. change (body R_port) with (Plus (Tok T_Digit)) in H. apply lang_plus_inv in H as [u [us [-> H]]].
  assert (X : Forall (fun t => In (tt t) [T_Digit]) (concat (u :: us))).
  { clear L. induction H as [|x l Hx H IH]; [constructor|]. cbn [concat]. apply lang_cls in Hx as [t [-> Ht]]. now constructor. }
  split; [inversion H; subst; apply lang_cls in H2 as [t [-> _]]; discriminate|].
  rewrite Forall_map. rewrite Forall_forall in *. intros t Ht. apply (class_lexed [T_Digit] digit_char); auto using digit_class.
Qed.
