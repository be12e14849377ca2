(** The texts of EncText.v as token strings of the form that EncList.v reads. *)
From Coq Require Import String List NArith ZArith Bool Arith Lia.
From Verif Require Import Lexer Grammar Utf8 Strs Mime GoTime Parser Walker Api Spec ParserFacts
  WalkerFacts Static Total Cfws LangFacts LexFacts Utf8Facts First DateSpec AddrSpec Chosen AddrSem CharFacts PropApi PropInv
  ScanSpec ScanFacts ScanEnc ScanWords ScanName AddrText TextLang TextScan EncText EncAlign EncSel EncBox EncList.
Import ListNotations.

(** ** Characters *)
Lemma equal_class r : bmp r = true -> memb (tt (tok_of r)) [T_Equal] = (r =? 61)%N.
Proof. apply (class_spec [T_Equal] (fun r => (r =? 61)%N)); [vm_compute; reflexivity|]. intros c Hc. change (memb T_UTF8NonAscii [T_Equal]) with false. apply N.eqb_neq. lia. Qed.
Lemma question_class r : bmp r = true -> memb (tt (tok_of r)) [T_Question] = (r =? 63)%N.
Proof. apply (class_spec [T_Question] (fun r => (r =? 63)%N)); [vm_compute; reflexivity|]. intros c Hc. change (memb T_UTF8NonAscii [T_Question]) with false. apply N.eqb_neq. lia. Qed.
Lemma tok_equal r : bmp r = true -> tt (tok_of r) = T_Equal -> r = 61%N.
Proof. intros B E. pose proof (equal_class r B) as K. rewrite E in K. symmetry in K. now apply N.eqb_eq in K. Qed.
Lemma tok_question r : bmp r = true -> tt (tok_of r) = T_Question -> r = 63%N.
Proof. intros B E. pose proof (question_class r B) as K. rewrite E in K. symmetry in K. now apply N.eqb_eq in K. Qed.

Lemma toks_split x p a b q : toks x = p ++ a :: b :: q -> exists x1 c d x2, x = x1 ++ c :: d :: x2 /\ a = tok_of c /\ b = tok_of d.
Proof.
  revert p. induction x as [|r x IH]; intros p E; [destruct p; discriminate E|]. destruct p as [|t p]; cbn [app toks map] in E.
  - destruct x as [|r2 x]; [discriminate E|]. cbn [map] in E. injection E as <- <- _. exists [], r, r2, x. auto.
  - injection E as _ E. destruct (IH p E) as (x1 & c & d & x2 & -> & A & B). exists (r :: x1), c, d, x2. auto.
Qed.

Lemma intro_pair x : no_intro x -> bmps x -> no_pair (toks x).
Proof.
  intros N B p a b q E Ea Eb. destruct (toks_split x p a b q E) as (x1 & c & d & x2 & -> & -> & ->).
  apply Forall_app in B as [_ B]. inversion B as [|? ? Bc B']; subst. inversion B' as [|? ? Bd _]; subst.
  apply tok_equal in Ea; [|exact Bc]. apply tok_question in Eb; [|exact Bd]. subst. exact (N x1 x2 eq_refl).
Qed.

Lemma pair_start w : no_pair w -> no_enc_start w.
Proof. intros N. destruct w as [|x [|y w]]; try exact Logic.I. cbn. intros A B. exact (N [] x y w eq_refl A B). Qed.

(** ** Quoted strings *)
Lemma quoted_r x t (e : wenv) : quoted x t -> bmps x /\ lang (Nt R_quotedString) (toks x) /\ r_qstring (toks x) (encode t).
Proof.
  intros H. destruct (quoted_lang x t H) as [B L]. split; [exact B|]. split; [exact L|].
  pose proof L as L0. apply lang_nt in L0 as (f & D & E). destruct (den_qstring e f D) as (v & _ & R). rewrite E in R.
  destruct (runs_qstring _ _ R (toks_lexed_bmp _ B)) as (t' & -> & _ & K). pose proof (quoted_emits x t H) as K2.
  assert (Er : rs (toks x) = x) by (unfold rs, toks; rewrite map_map; apply map_id). rewrite Er in K.
  assert (X : [EQ t'] = [EQ t]). { apply (emits_fun (toks x)); intros a; rewrite Er; [apply K | apply K2]. }
  injection X as ->. exact R.
Qed.

(** ** Encoded words *)
Lemma encoded_lang w : full_encoded_word w -> bmps w /\ lang (Nt R_encodedWord) (toks w).
Proof.
  intros (c & e & t & -> & [Nc Hc] & [Ne He] & [Nt' Ht]).
  assert (TB : forall r, enc_token_char r = true -> tokb_char r = true) by (intros r H; exact H).
  assert (Tb : forall r, tokb_char r = true -> bmp r = true).
  { apply hi_bmp. intros r Hr. unfold any_token_char. rewrite token_hi by exact Hr. apply N.eqb_neq. lia. }
  assert (Eb : forall r, enc_char r = true -> bmp r = true).
  { apply hi_bmp. intros r Hr. unfold enc_char, in_range. replace (r <=? 126)%N with false by (symmetry; apply N.leb_gt; lia). now rewrite andb_false_r. }
  assert (Bc : bmps c) by (eapply Forall_impl; [|exact Hc]; intros r Hr; cbv beta in Hr; auto).
  assert (Be : bmps e) by (eapply Forall_impl; [|exact He]; intros r Hr; cbv beta in Hr; auto).
  assert (Bt : bmps t) by (eapply Forall_impl; [|exact Ht]; intros r Hr; cbv beta in Hr; auto).
  assert (Lt : forall x, x <> [] -> bmps x -> Forall (fun r => enc_token_char r = true) x -> lang (Nt R_token) (toks x)).
  { intros x N B H. apply lang_token. split; [destruct x; [congruence | discriminate]|]. apply (toks_types R_tokenChar tokb_char); [apply token_class | exact B | exact H]. }
  split; [rewrite !bmps_app; repeat split; auto; repeat constructor|].
  rewrite !toks_app. apply lang_nt_i. change (body R_encodedWord) with g_encodedWord. unfold g_encodedWord. cbn [seqs].
  change (toks (bs "=?")) with ([tok_of 61%N] ++ [tok_of 63%N]). change (toks (bs "?")) with [tok_of 63%N].
  change (toks (bs "?=")) with ([tok_of 63%N] ++ [tok_of 61%N]). rewrite <- app_assoc.
  apply lang_seq_i; [apply lang_cls_i; left; reflexivity|]. apply lang_seq_i; [apply lang_cls_i; left; reflexivity|].
  apply lang_seq_i; [apply lang_nt_i; apply Lt; assumption|]. apply lang_seq_i; [apply lang_cls_i; left; reflexivity|].
  apply lang_seq_i; [apply lang_nt_i; apply Lt; assumption|]. apply lang_seq_i; [apply lang_cls_i; left; reflexivity|].
  apply lang_seq_i; [apply lang_etext; split; [now intros X; apply map_eq_nil in X|]; apply (toks_types R_encodedChar etext_char); [apply etext_class | exact Bt | exact Ht]|].
  apply lang_seq_i; [apply lang_cls_i; left; reflexivity|]. apply lang_cls_i; left; reflexivity.
Qed.

(** ** Addresses *)
Lemma spec_parts (e : wenv) y l d : tight_local y l -> domain_m d -> bmps y /\ tlocal (toks y) l /\ bmps d /\ tdomain (toks d).
Proof.
  intros L D.
  assert (XL : bmps y /\ tlocal (toks y) l).
  { destruct L as [l L N|q t Q].
    - assert (B : bmps l) by now apply dot_atom_bmp. split; [exact B|]. left. split; [now apply lang_dotAtom_i|]. split; [now rewrite text_toks | now apply intro_pair].
    - destruct (quoted_r q t e Q) as (B & Lq & R). split; [exact B|]. right. auto. }
  assert (XD : bmps d /\ tdomain (toks d)).
  { destruct D as [d D N|b D].
    - assert (B : bmps d) by now apply dot_atom_bmp. split; [exact B|]. left. split; [now apply lang_dotAtom_i | now apply intro_pair].
    - apply literal_body_lang in D as [B (w & u & E & Lb & F)]. split; [rewrite !bmps_app; repeat split; auto; repeat constructor|]. right.
      rewrite !toks_app, E. apply lang_nt_i. change (body R_domainLiteral) with g_domainLiteral. unfold g_domainLiteral. cbn [seqs]. rewrite <- !app_assoc.
      apply (lang_seq_i _ _ (toks (bs "["))); [apply lang_cls_i; now left|]. apply lang_seq_i; [exact Lb|]. apply lang_seq_i; [exact F | apply lang_cls_i; now left]. }
  tauto.
Qed.

Lemma spec_tspec (e : wenv) x a : tight_spec x a -> bmps x /\ exists l v t d, toks x = l ++ t :: d /\ tspec l v t d /\ tdomain d /\ a = at_join v (text d).
Proof.
  intros [y l d L D]. destruct (spec_parts e y l d L D) as (Bl & Tl & Bd & Td). split; [rewrite !bmps_app; repeat split; auto; repeat constructor|].
  exists (toks y), l, (tok_of 64%N), (toks d). split; [rewrite !toks_app; reflexivity|]. split; [|split; [exact Td|]].
  - constructor; auto using toks_lexed_bmp. now left.
  - unfold at_join. now rewrite text_toks.
Qed.

Lemma port_tspec (e : wenv) x a : ported_spec x a -> bmps x /\ exists l v t d, toks x = l ++ t :: d /\ tspec l v t d /\ a = at_join v (text d).
Proof.
  intros [y l d p L D [Np Dp]]. destruct (spec_parts e y l d L D) as (Bl & Tl & Bd & Td). destruct (digits_lang p Np Dp) as [Bp Lp].
  assert (B : bmps (d ++ bs ":" ++ p)) by (rewrite !bmps_app; repeat split; auto; repeat constructor).
  split; [rewrite !bmps_app; repeat split; auto; repeat constructor|].
  exists (toks y), l, (tok_of 64%N), (toks (d ++ bs ":" ++ p)). split; [rewrite !toks_app; reflexivity|]. split.
  - constructor; auto using toks_lexed_bmp. right. exists (toks d), (toks (bs ":" ++ p)). split; [now rewrite toks_app|]. split; [exact Td|].
    exists (tok_of 58%N), (toks p). split; [rewrite toks_app; reflexivity|]. split; [reflexivity|]. split; [reflexivity | exact Lp].
  - unfold at_join. now rewrite text_toks.
Qed.

Lemma address_tspec (e : wenv) x a : tight_address x a -> bmps x /\ exists l v t d, toks x = l ++ t :: d /\ tspec l v t d /\ a = at_join v (text d).
Proof.
  intros [H|H]; [|now apply port_tspec]. destruct (spec_tspec e x a H) as (B & l & v & t & d & E & T & _ & A). split; [exact B|]. exists l, v, t, d. auto.
Qed.

(** ** Names *)
Definition next_gap (l : list (list rune * item)) (gend : list rune) : list rune := match l with (g, _) :: _ => g | [] => gend end.
Fixpoint enc_items (ws : list (list rune)) (g : list rune) : list (tit * word) :=
  match ws with
  | [] => []
  | w :: ws' => match ws' with [] => [(TEnc (toks w), toks g)] | _ => (TEnc (toks w), []) :: enc_items ws' g end
  end.
Definition items_of (i : item) (g : list rune) : list (tit * word) :=
  match i with
  | IAtom a => [(TAtom (toks a), toks g)]
  | IQuoted q t => [(TQuo (toks q) (encode t), toks g)]
  | IEnc ws => enc_items ws g
  | IMark _ => []
  end.
Fixpoint conv (l : list (list rune * item)) (gend : list rune) : list (tit * word) :=
  match l with
  | [] => []
  | (_, i) :: l' => items_of i (next_gap l' gend) ++ conv l' gend
  end.

Lemma enc_items_text ws g : ws <> [] -> ltext (enc_items ws g) = toks (concat ws ++ g).
Proof.
  induction ws as [|w ws IH]; intros N; [congruence|]. destruct ws as [|w2 ws].
  - cbn. rewrite !app_nil_r. now rewrite toks_app.
  - change (enc_items (w :: w2 :: ws) g) with ((TEnc (toks w), []) :: enc_items (w2 :: ws) g). rewrite ltext_cons, IH by discriminate.
    cbn [tword app]. rewrite <- toks_app. f_equal. cbn [concat]. now rewrite <- !app_assoc.
Qed.

Lemma items_text i g : full_item i -> ltext (items_of i g) = toks (item_text i ++ g).
Proof.
  intros H. destruct i as [a|ws|q t|r]; cbn [full_item] in H; [| |  |easy].
  - cbn. rewrite app_nil_r. now rewrite toks_app.
  - apply enc_items_text. now destruct H.
  - cbn. rewrite app_nil_r. now rewrite toks_app.
Qed.

Lemma conv_text l gend : forall b, full_items b l -> toks (next_gap l gend) ++ ltext (conv l gend) = toks (name_text l ++ gend).
Proof.
  induction l as [|[g i] l IH]; intros b H; [cbn; now rewrite app_nil_r|]. cbn [full_items] in H. destruct H as (G & I & _ & H).
  cbn [next_gap conv]. rewrite ltext_app, items_text by exact I. rewrite toks_app. change (name_text ((g, i) :: l)) with ((g ++ item_text i) ++ name_text l).
  rewrite <- !app_assoc, !toks_app. rewrite <- (toks_app (name_text l)), <- (IH _ H). reflexivity.
Qed.

Lemma full_item_bmp (e : wenv) i : full_item i -> bmps (item_text i).
Proof.
  intros H. destruct i as [a|ws|q t|r]; cbn [full_item item_text] in *; [| | |easy].
  - destruct H as [A _]. now apply atom_bmp.
  - destruct H as [_ F]. clear -F. induction F as [|w ws W F IH]; [apply bmps_nil|]. cbn [concat]. apply bmps_app. split; [now apply encoded_lang in W | exact IH].
  - now apply (quoted_r q t e).
Qed.

Lemma full_items_bmp (e : wenv) l : forall b, full_items b l -> bmps (name_text l).
Proof.
  induction l as [|[g i] l IH]; intros b H; [apply bmps_nil|]. cbn [full_items] in H. destruct H as (G & I & _ & H).
  change (name_text ((g, i) :: l)) with ((g ++ item_text i) ++ name_text l). rewrite !bmps_app. split; [split; [now apply gap_bmp | now apply (full_item_bmp e)] | now apply (IH (is_run i))].
Qed.

(** what starts with a gap, a quote or nothing does not start with an atom character *)
Lemma gap_no_atext g x : opt_cfws (toks g) -> g <> [] -> not_atext (toks g ++ x).
Proof.
  intros G N. destruct g as [|r g]; [congruence|]. cbn [toks map app not_atext]. intros A. apply (solid_no (tok_of r) (toks g) [] G). apply adott_solid. now right.
Qed.

Lemma enc_items_lok ws g L y : opt_cfws (toks g) -> Forall full_encoded_word ws -> lok L y -> lok (enc_items ws g ++ L) y.
Proof.
  intros G F K. induction F as [|w ws W F IH]; [exact K|]. destruct (encoded_lang w W) as [B Lw].
  destruct ws as [|w2 ws].
  - cbn [enc_items app lok tit_ok tword]. auto using toks_lexed_bmp.
  - change (enc_items (w :: w2 :: ws) g ++ L) with ((TEnc (toks w), []) :: (enc_items (w2 :: ws) g ++ L)). cbn [lok tit_ok tword]. auto using toks_lexed_bmp, no_gap.
Qed.

Lemma conv_lok (e : wenv) l gend lt x : tt lt = T_Less -> ogap gend -> forall b, full_items b l -> lok (conv l gend) (lt :: x).
Proof.
  intros Lt G. induction l as [|[g i] l IH]; intros b H; [exact Logic.I|]. cbn [full_items] in H. destruct H as (Gg & I & _ & H). cbn [conv].
  assert (GN : ogap (next_gap l gend)) by (destruct l as [|[g2 i2] l]; [exact G|]; cbn [full_items next_gap] in *; tauto).
  apply gap_cfws in GN. specialize (IH _ H).
  destruct i as [a|ws|q t|r]; cbn [full_item] in I; [| | |easy].
  - destruct I as [A N]. assert (B : bmps a) by now apply atom_bmp. cbn [items_of app lok tit_ok tword].
    split; [split; [now apply lang_atom_i | apply pair_start; now apply intro_pair]|]. split; [exact GN|]. split; [now apply toks_lexed_bmp|]. split; [|exact IH].
    destruct l as [|[g2 i2] l].
    + cbn [next_gap conv ltext flat_map app] in *. destruct gend as [|r0 gend].
      * cbn [toks map app not_atext]. rewrite Lt. intros X. apply memb_In in X. discriminate X.
      * apply gap_no_atext; [exact GN | discriminate].
    + cbn [next_gap] in *. destruct g2 as [|r0 g2].
      * cbn [full_items is_run] in H. destruct H as (_ & I2 & X & _). destruct (is_run i2) eqn:R2; [exfalso; now apply X|].
        destruct i2 as [|ws2|q2 t2|r2]; try discriminate R2; [|easy]. cbn [full_item] in I2. destruct (quoted_r q2 t2 e I2) as (_ & Lq & _).
        cbn [conv items_of app toks map]. rewrite ltext_cons. cbn [tword]. destruct (quoted_head _ Lq) as (k & k' & Ek & K). rewrite Ek. cbn [app not_atext]. rewrite K.
        intros Z. apply memb_In in Z. discriminate Z.
      * apply gap_no_atext; [exact GN | discriminate].
  - destruct I as [_ F]. cbn [items_of]. now apply enc_items_lok.
  - destruct (quoted_r q t e I) as (B & Lq & R). cbn [items_of app lok tit_ok tword]. auto 10 using toks_lexed_bmp.
Qed.

Lemma conv_nonnil l gend : full_name l -> conv l gend <> [].
Proof.
  intros [N H]. destruct l as [|[g i] l]; [congruence|]. cbn [full_items] in H. destruct H as (_ & I & _). cbn [conv]. destruct i as [a|ws|q t|r]; cbn [full_item] in I; try discriminate; [|easy].
  destruct I as [Nw _]. cbn [items_of]. destruct ws as [|w [|w2 ws]]; [congruence | discriminate | discriminate].
Qed.

(** ** The meaning of a name *)
Definition is_ienc (i : item) : bool := match i with IEnc _ => true | _ => false end.
Definition was_enc (p : option item) : bool := match p with Some i => is_ienc i | None => false end.
Definition not_mark (p : option item) : Prop := match p with Some (IMark _) => False | _ => True end.

Lemma enc_items_true e ws g : ws <> [] -> Forall full_encoded_word ws -> forall n L,
  nv e n true (enc_items ws g ++ L) = nv e (n ++ flat_map (fun w => encoded_word_value (reader e) (encode w)) ws) true L.
Proof.
  intros N F. induction F as [|w ws W F IH]; intros n L; [congruence|]. destruct (encoded_lang w W) as [B _].
  destruct ws as [|w2 ws].
  - cbn [enc_items app nv is_tenc andb tvalue flat_map]. unfold enc_of. rewrite text_toks by exact B. now rewrite app_nil_r.
  - change (enc_items (w :: w2 :: ws) g ++ L) with ((TEnc (toks w), []) :: (enc_items (w2 :: ws) g ++ L)). cbn [nv is_tenc andb tvalue].
    rewrite IH by discriminate. unfold enc_of. rewrite text_toks by exact B. cbn [flat_map]. now rewrite <- app_assoc.
Qed.

Lemma enc_items_false e ws g : ws <> [] -> Forall full_encoded_word ws -> forall n L,
  nv e n false (enc_items ws g ++ L) = nv e (glue n false (flat_map (fun w => encoded_word_value (reader e) (encode w)) ws)) true L.
Proof.
  intros N F n L. destruct F as [|w ws W F]; [congruence|]. destruct (encoded_lang w W) as [B _].
  destruct ws as [|w2 ws].
  - cbn [enc_items app nv is_tenc andb tvalue flat_map]. unfold enc_of. rewrite text_toks by exact B. now rewrite app_nil_r.
  - change (enc_items (w :: w2 :: ws) g ++ L) with ((TEnc (toks w), []) :: (enc_items (w2 :: ws) g ++ L)). cbn [nv is_tenc andb tvalue].
    rewrite enc_items_true by (try discriminate; assumption). unfold enc_of. rewrite text_toks by exact B. cbn [flat_map]. now rewrite (glue_app n false).
Qed.

Lemma conv_value e l gend : forall b n p, full_items b l -> not_mark p -> (p = None -> n = []) ->
  nv e n (was_enc p) (conv l gend) = name_from (reader e) n p l.
Proof.
  induction l as [|[g i] l IH]; intros b n p H M P; [reflexivity|]. cbn [full_items] in H. destruct H as (_ & I & _ & H). cbn [conv name_from].
  assert (GL : forall v, joins p i = false -> n ++ (match n with [] => [] | _ => bs " " end) ++ v = glue n false v).
  { intros v _. unfold glue. destruct n; [reflexivity|]. now rewrite <- app_assoc. }
  destruct i as [a|ws|q t|r]; cbn [full_item] in I; [| | |easy].
  - cbn [items_of app nv is_tenc]. rewrite andb_false_r. cbn [tvalue]. destruct I as [A _]. rewrite text_toks by now apply atom_bmp.
    rewrite <- (IH _ _ (Some (IAtom a)) H); [|exact Logic.I | discriminate]. f_equal. cbn [item_value].
    destruct p as [[| | |]|]; cbn [joins]; try (now rewrite GL); [destruct M|]. rewrite P by reflexivity. reflexivity.
  - destruct I as [N F]. cbn [items_of]. rewrite <- (IH _ _ (Some (IEnc ws)) H); [|exact Logic.I | discriminate]. cbn [was_enc is_ienc].
    destruct p as [[|ws0| |]|]; cbn [was_enc is_ienc joins]; rewrite ?enc_items_false, ?enc_items_true by assumption; cbn [item_value]; try (now rewrite GL); [reflexivity | destruct M |].
    rewrite P by reflexivity. reflexivity.
  - cbn [items_of app nv is_tenc]. rewrite andb_false_r. cbn [tvalue].
    rewrite <- (IH _ _ (Some (IQuoted q t)) H); [|exact Logic.I | discriminate]. f_equal. cbn [item_value].
    destruct p as [[| | |]|]; cbn [joins]; try (now rewrite GL); [destruct M|]. rewrite P by reflexivity. reflexivity.
Qed.

(** ** Elements and lists *)
Lemma full_box (e : wenv) x a : full_mailbox (reader e) x a -> bmps x /\ tbox e (toks x) a.
Proof.
  intros [g y v g' G S G'|g y v G S|g y v g' G S G'|l g y v g' N G S G'];
    [destruct (spec_tspec e y v S) as (B & lo & lv & t & d & E & T & Td & ->)
    |destruct (port_tspec e y v S) as (B & lo & lv & t & d & E & T & ->)
    |destruct (address_tspec e y v S) as (B & lo & lv & t & d & E & T & ->)..].
  - split; [rewrite !bmps_app; auto using gap_bmp|]. rewrite !toks_app, E. rewrite <- app_assoc. cbn [app]. apply (tb_spec e (toks g) lo lv t d (toks g')); auto using gap_cfws.
  - split; [rewrite !bmps_app; auto using gap_bmp|]. rewrite !toks_app, E.
    replace (toks g ++ lo ++ t :: d) with (toks g ++ lo ++ t :: d ++ []) by (now rewrite app_nil_r). apply (tb_spec e (toks g) lo lv t d []); auto using gap_cfws, no_gap.
  - split; [rewrite !bmps_app; repeat split; auto using gap_bmp; repeat constructor|]. rewrite !toks_app, E. rewrite <- app_assoc. cbn [app].
    apply (tb_angle e (toks g) (tok_of 60%N) lo lv t d (tok_of 62%N) (toks g')); auto using gap_cfws.
  - pose proof N as [Nl F]. split; [rewrite !bmps_app; repeat split; auto using gap_bmp; try (repeat constructor); now apply (full_items_bmp e l false)|].
    rewrite (app_assoc (name_text l)), toks_app, <- (conv_text l g false F). rewrite !toks_app, E. rewrite <- !app_assoc. cbn [app].
    replace (address_of (name_value (reader e) l) (at_join lv (text d))) with (mkAddr (nv e [] false (conv l g)) (at_join lv (text d))).
    + apply (tb_named e (toks (next_gap l g)) (conv l g) (tok_of 60%N) lo lv t d (tok_of 62%N) (toks g')); auto using gap_cfws.
      * apply gap_cfws. destruct l as [|[g2 i2] l]; [exact G|]. cbn [full_items next_gap] in *. tauto.
      * now apply conv_nonnil.
      * intros x0. now apply (conv_lok e l g (tok_of 60%N) x0 eq_refl G false).
    + unfold address_of. f_equal. unfold name_value. apply (conv_value e l g false [] None F); [exact Logic.I | reflexivity].
Qed.

Lemma full_tlist (e : wenv) x l : full_list (reader e) x l -> bmps x /\ x <> [] /\ l <> [] /\ tlist e (toks x) l.
Proof.
  induction 1 as [x a H|x a s y l H S L IH].
  - destruct (full_box e x a H) as [B T]. split; [exact B|]. split; [|split; [discriminate|]].
    + intros ->. cbn in T. clear -T. remember [] as w. destruct T as [u l v t d g U S G GK|z lt l v t d gt g Z L S H G|u M lt l v t d gt g U N K L S H G];
        repeat (apply app_eq_nil in Heqw as [_ Heqw]); discriminate Heqw.
    + exists (toks x), a, [], []. split; [now rewrite app_nil_r|]. split; [exact T|]. split; [constructor | reflexivity].
  - destruct (full_box e x a H) as [B T]. destruct IH as (B2 & _ & _ & x2 & a2 & t2 & l2 & E & T2 & TT & ->).
    split; [rewrite !bmps_app; repeat split; auto; apply bmps_one; destruct S as [-> | ->]; reflexivity|].
    split; [now destruct x|]. split; [discriminate|].
    exists (toks x), a, (tok_of s :: toks y), (a2 :: l2). split; [rewrite !toks_app; reflexivity|]. split; [exact T|]. split; [|reflexivity].
    rewrite E. apply tt_cons; auto. destruct S as [-> | ->]; [left; reflexivity | right; left; reflexivity].
Qed.
