(** The texts of AddrText.v are sentences of the grammar. *)
From Coq Require Import String List NArith ZArith Bool Arith Lia.
From Verif Require Import Lexer Grammar Utf8 Strs Mime GoTime Parser Walker Api Spec ParserFacts
  WalkerFacts Static Total Cfws LangFacts LexFacts Utf8Facts First DateSpec AddrSpec Chosen AddrSem CharFacts PropApi PropInv
  ScanSpec ScanFacts ScanEnc ScanWords ScanName ScanAddr ScanBox ScanList PropScan MboxList AddrText.
Import ListNotations.

Definition bmps (x : list rune) : Prop := Forall (fun r => bmp r = true) x.

Lemma bmps_app x y : bmps (x ++ y) <-> bmps x /\ bmps y.
Proof. apply Forall_app. Qed.

Lemma bmps_one r : bmp r = true -> bmps [r].
Proof. intros H. constructor; [exact H | constructor]. Qed.

Lemma bmps_nil : bmps [].
Proof. constructor. Qed.

Lemma toks_nil : toks [] = [].
Proof. reflexivity. Qed.

Lemma toks_nonnil x : x <> [] -> toks x <> [].
Proof. destruct x; [congruence | discriminate]. Qed.

(** ** White space *)
Lemma blanks_bmp a : blanks a -> bmps a.
Proof.
  intros H. induction H as [|r a Hr H IH]; constructor; auto. unfold blank_char in Hr. apply orb_true_iff in Hr as [E|E]; apply N.eqb_eq in E; subst r; reflexivity.
Qed.

Lemma blanks_wsps a : blanks a -> wsps (toks a).
Proof.
  intros H. induction H as [|r a Hr H IH]; constructor; auto. unfold blank_char in Hr. apply orb_true_iff in Hr as [E|E]; apply N.eqb_eq in E; subst r; vm_compute; auto.
Qed.

Lemma fold_bmp u : fold u -> bmps u.
Proof. intros [a N H|a b Ha N Hb]; [now apply blanks_bmp|]. rewrite !bmps_app. repeat split; auto using blanks_bmp. repeat constructor. Qed.

Lemma fold_folded u : fold u -> folded (toks u).
Proof.
  intros [a N H|a b Ha N Hb]; [left; now apply blanks_wsps|]. right. rewrite !toks_app.
  exists (toks a), (tok_of 13%N), (tok_of 10%N), (toks b). repeat split; auto using blanks_wsps, toks_nonnil.
Qed.

Lemma ofold_bmp u : optional fold u -> bmps u.
Proof. intros [->|H]; [constructor | now apply fold_bmp]. Qed.

Lemma ofold_fws u : optional fold u -> opt_fws (toks u).
Proof. intros [->|H]; [apply lang_opt_none | now apply fws_folded, fold_folded]. Qed.

(** ** Characters *)
Lemma ctext_class r : bmp r = true -> memb (tt (tok_of r)) (types R_ctext) = comment_char r.
Proof.
  apply class_spec; [vm_compute; reflexivity|]. unfold comment_char, ctl_char. hi_range.
  rewrite !existsb_hi by (lia || reflexivity). reflexivity.
Qed.

Lemma qtext_quoted r : bmp r = true -> memb (tt (tok_of r)) (types R_qtext) = quoted_char r.
Proof.
  apply class_spec; [vm_compute; reflexivity|]. unfold quoted_char, ctl_char. hi_range.
  rewrite !existsb_hi by (lia || reflexivity). reflexivity.
Qed.

Lemma dtext_same r : dtext r = dtext_char r.
Proof. reflexivity. Qed.

Lemma in_range_bmp a b r : (b <= 65535)%N -> in_range a b r = true -> bmp r = true.
Proof. unfold in_range, bmp. intros H. rewrite andb_true_iff, !N.leb_le. lia. Qed.

Lemma ctl_bmp r : ctl_char r = true -> bmp r = true.
Proof.
  unfold ctl_char. rewrite andb_true_iff, orb_true_iff. intros [[H|H] _]; [now apply (in_range_bmp 1%N 31%N)|]. apply N.eqb_eq in H. subst r. reflexivity.
Qed.

Lemma text_bmp r p : ((in_range 33 126 r || in_range 128 65535 r || ctl_char r) && p)%bool%N = true -> bmp r = true.
Proof.
  rewrite andb_true_iff, !orb_true_iff. intros [[[H|H]|H] _]; [now apply (in_range_bmp 33%N 126%N) | now apply (in_range_bmp 128%N 65535%N) | now apply ctl_bmp].
Qed.

Lemma comment_char_bmp r : comment_char r = true -> bmp r = true.
Proof. apply text_bmp. Qed.

Lemma quoted_char_bmp r : quoted_char r = true -> bmp r = true.
Proof. apply text_bmp. Qed.

Lemma dtext_bmp r : dtext r = true -> bmp r = true.
Proof.
  unfold dtext. rewrite andb_true_iff, !orb_true_iff. intros [[H|H] _]; [now apply (in_range_bmp 33%N 126%N) | now apply (in_range_bmp 128%N 65535%N)].
Qed.

Lemma pair_bmp r : pair_char r = true -> bmp r = true.
Proof. exact (fun H => H). Qed.

Lemma lang_pair r : bmp r = true -> lang (Nt R_quotedPair) (toks [92%N; r]).
Proof.
  intros B. apply lang_nt_i. change (body R_quotedPair) with g_quotedPair. unfold g_quotedPair. cbn [alts]. destruct (lost r) eqn:L.
  - apply lang_altr, lang_nt_i. change (body R_obsQP) with g_obsQP. unfold g_obsQP. cbn [seqs]. apply (lang_seq_i _ _ [_] [_]); [apply lang_cls_i; now left|].
    pose proof (class_In _ _ r obsqp_class B L) as I. unfold obs_qp in I. destruct I as [E|I].
    + apply lang_altl, lang_cls_i. left. exact E.
    + apply in_app_iff in I as [I|[E|[E|[]]]].
      * apply lang_altr, lang_altl, single_lang_i; [reflexivity | exact I].
      * apply lang_altr, lang_altr, lang_altl, lang_cls_i. left. exact E.
      * apply lang_altr, lang_altr, lang_altr, lang_cls_i. left. exact E.
  - apply lang_altl. cbn [seqs]. apply (lang_seq_i _ _ [_] [_]); [apply lang_cls_i; now left|]. apply single_lang_i; [reflexivity|].
    apply (class_In _ _ r qchar_class B). unfold qpair_char. now rewrite L.
Qed.

(** ** Comments *)
Definition g_cpart : gexp := seqs [Opt (Nt R_fws); Nt R_ccontent].

Lemma comment_body_lang b : comment_body b -> bmps b /\ exists w u, toks b = w ++ u /\ lang (Star g_cpart) w /\ opt_fws u.
Proof.
  intros H. induction H as [u Hu|u r b Hu Hr H [B (w & u' & E & L & F)]|u r b Hu Hr H [B (w & u' & E & L & F)]|u c b Hu Hc [Bc (wc & uc & Ec & Lc & Fc)] Hb [B (w & u' & E & L & F)]].
  - split; [now apply ofold_bmp|]. exists [], (toks u). split; [reflexivity|]. split; [apply lang_star_nil | now apply ofold_fws].
  - split; [rewrite !bmps_app; repeat split; auto using ofold_bmp, comment_char_bmp, bmps_one|].
    exists ((toks u ++ toks [r]) ++ w), u'. split; [rewrite !toks_app, E, <- !app_assoc; reflexivity|]. split; [|exact F].
    apply lang_star_cons; [|exact L]. apply lang_seq_i; [now apply ofold_fws|]. apply lang_nt_i. apply lang_altl, single_lang_i; [reflexivity|].
    apply (class_In _ _ r ctext_class); auto using comment_char_bmp.
  - split; [rewrite !bmps_app; repeat split; auto using ofold_bmp; repeat constructor; auto|].
    exists ((toks u ++ toks [92%N; r]) ++ w), u'. split; [rewrite !toks_app, E, <- !app_assoc; reflexivity|]. split; [|exact F].
    apply lang_star_cons; [|exact L]. apply lang_seq_i; [now apply ofold_fws|]. apply lang_nt_i. apply lang_altr, lang_altl, lang_pair; auto.
  - split; [rewrite !bmps_app; repeat split; auto using ofold_bmp; repeat constructor; auto|].
    exists ((toks u ++ ([tok_of 40%N] ++ wc ++ uc ++ [tok_of 41%N])) ++ w), u'.
    split; [rewrite !toks_app, Ec, E, <- !app_assoc; reflexivity|]. split; [|exact F].
    apply lang_star_cons; [|exact L]. apply lang_seq_i; [now apply ofold_fws|]. apply lang_nt_i. apply lang_altr, lang_altr, lang_nt_i.
    change (body R_comment) with g_comment. unfold g_comment. cbn [seqs]. apply lang_seq_i; [apply lang_cls_i; now left|].
    apply lang_seq_i; [exact Lc|]. apply lang_seq_i; [exact Fc | apply lang_cls_i; now left].
Qed.

Lemma comment_lang c : comment c -> bmps c /\ lang (Nt R_comment) (toks c).
Proof.
  intros (b & -> & H). apply comment_body_lang in H as [B (w & u & E & L & F)]. split; [rewrite !bmps_app; repeat split; auto; repeat constructor|].
  rewrite !toks_app, E. apply lang_nt_i. change (body R_comment) with g_comment. unfold g_comment. cbn [seqs]. rewrite <- !app_assoc.
  apply (lang_seq_i _ _ (toks (bs "("))); [apply lang_cls_i; now left|]. apply lang_seq_i; [exact L|]. apply lang_seq_i; [exact F | apply lang_cls_i; now left].
Qed.

Lemma comments_lang x : comments x -> bmps x /\ exists us u, toks x = concat us ++ u /\ us <> [] /\ Forall (lang (seqs [Opt (Nt R_fws); Nt R_comment])) us /\ opt_fws u.
Proof.
  intros H. induction H as [u c u' Hu Hc Hu'|u c x Hu Hc H [B (us & u' & E & N & L & F)]].
  - apply comment_lang in Hc as [B L]. split; [rewrite !bmps_app; repeat split; auto using ofold_bmp|]. exists [toks u ++ toks c], (toks u').
    split; [rewrite !toks_app; cbn [concat]; now rewrite app_nil_r, app_assoc|]. split; [discriminate|]. split; [|now apply ofold_fws].
    constructor; [|constructor]. apply lang_seq_i; [now apply ofold_fws | exact L].
  - apply comment_lang in Hc as [Bc Lc]. split; [rewrite !bmps_app; repeat split; auto using ofold_bmp|]. exists ((toks u ++ toks c) :: us), u'.
    split; [rewrite !toks_app, E; cbn [concat]; now rewrite <- !app_assoc|]. split; [discriminate|]. split; [|exact F].
    constructor; [|exact L]. apply lang_seq_i; [now apply ofold_fws | exact Lc].
Qed.

Lemma gap_lang g : ogap g -> bmps g /\ opt_cfws (toks g).
Proof.
  intros [->|[H|H]].
  - split; [constructor | apply lang_opt_none].
  - split; [now apply fold_bmp|]. apply lang_opt_some, lang_nt_i. change (body R_cfws) with g_cfws. apply lang_altr.
    assert (F : opt_fws (toks g)) by (apply ofold_fws; now right). apply lang_opt_inv in F as [F|F]; [exact F|].
    destruct H as [a N _|a b _ N _]; [|destruct a; discriminate F]. destruct a; [congruence | discriminate F].
  - apply comments_lang in H as [B (us & u & E & N & L & F)]. split; [exact B|]. apply lang_opt_some, lang_nt_i. change (body R_cfws) with g_cfws. apply lang_altl.
    rewrite E. apply lang_seq_i; [now apply lang_plus_concat | exact F].
Qed.

Lemma gap_bmp g : ogap g -> bmps g.
Proof. intros H. now apply gap_lang in H. Qed.

Lemma gap_cfws g : ogap g -> opt_cfws (toks g).
Proof. intros H. now apply gap_lang in H. Qed.

(** several gaps *)
Lemma long_lang g : long_gap g -> bmps g /\ exists us, toks g = concat us /\ Forall (lang (Nt R_cfws)) us.
Proof.
  induction 1 as [|g x G H [B (us & E & F)]]; [split; [constructor | exists []; split; [reflexivity | constructor]]|].
  split; [rewrite bmps_app; split; [now apply gap_bmp | exact B]|]. rewrite toks_app, E. apply gap_cfws, lang_opt_inv in G as [G| ->]; [|now exists us].
  exists (toks g :: us). split; [reflexivity | now constructor].
Qed.

Lemma wgap_lang enc g : wgap enc g -> bmps g /\ exists us, toks g = concat us /\ Forall (lang (Nt R_cfws)) us.
Proof. intros [G|[_ G]]; [|now apply long_lang]. apply long_lang. rewrite <- (app_nil_r g). apply lg_more; [exact G | constructor]. Qed.

Lemma gap_long g : ogap g -> long_gap g.
Proof. intros H. rewrite <- (app_nil_r g). apply lg_more; [exact H | constructor]. Qed.

Lemma long_wgap g : long_gap g -> wgap false g.
Proof. intros H. now right. Qed.

Lemma ogap_wgap enc g : ogap g -> wgap enc g.
Proof. intros H. now left. Qed.

Lemma name_true l : match l with (_, i) :: _ => is_mark i = false | [] => False end /\ items_ok true false l -> name_ok true l.
Proof.
  intros [M H]. split; [|exact H]. destruct l as [|[g i] l]; [exact M|]. split; [exact M|]. destruct H as [[G|[[=] _]] _]. exact G.
Qed.

Lemma wgap_bmp enc g : wgap enc g -> bmps g.
Proof. intros H. now apply wgap_lang in H. Qed.

Lemma wgap_star enc g X w : wgap enc g -> (forall u, lang (Nt R_cfws) u -> lang X u) -> lang (Star X) w -> lang (Star X) (toks g ++ w).
Proof.
  intros G HX W. apply wgap_lang in G as [_ (us & -> & F)]. induction F as [|u us U F IH]; [exact W|]. cbn [concat]. rewrite <- app_assoc. apply lang_star_cons; [now apply HX | exact IH].
Qed.

(** ** Quoted strings *)
Lemma quoted_body_lang b t : quoted_body b t -> bmps b /\ exists w u, toks b = w ++ u /\ lang (Nt R_quotedValue) w /\ opt_fws u.
Proof.
  intros H. assert (bmps b /\ exists w u, toks b = w ++ u /\ lang (Star (seqs [Opt (Nt R_fws); Nt R_quotedContent])) w /\ opt_fws u) as [B (w & u & E & L & F)].
  2: { split; [exact B|]. exists w, u. repeat split; auto. now apply lang_nt_i. }
  induction H as [u Hu|u r b t Hu Hr H [B (w & u' & E & L & F)]|u r b t Hu Hr H [B (w & u' & E & L & F)]].
  - split; [now apply ofold_bmp|]. exists [], (toks u). split; [reflexivity|]. split; [apply lang_star_nil | now apply ofold_fws].
  - split; [rewrite !bmps_app; repeat split; auto using ofold_bmp, quoted_char_bmp, bmps_one|].
    exists ((toks u ++ toks [r]) ++ w), u'. split; [rewrite !toks_app, E, <- !app_assoc; reflexivity|]. split; [|exact F].
    apply lang_star_cons; [|exact L]. apply lang_seq_i; [now apply ofold_fws|]. apply lang_nt_i. apply lang_altl, single_lang_i; [reflexivity|].
    apply (class_In _ _ r qtext_quoted); auto using quoted_char_bmp.
  - split; [rewrite !bmps_app; repeat split; auto using ofold_bmp; repeat constructor; auto|].
    exists ((toks u ++ toks [92%N; r]) ++ w), u'. split; [rewrite !toks_app, E, <- !app_assoc; reflexivity|]. split; [|exact F].
    apply lang_star_cons; [|exact L]. apply lang_seq_i; [now apply ofold_fws|]. apply lang_nt_i. apply lang_altr, lang_pair; auto.
Qed.

Lemma quoted_lang x t : quoted x t -> bmps x /\ lang (Nt R_quotedString) (toks x).
Proof.
  intros (b & -> & H). apply quoted_body_lang in H as [B (w & u & E & L & F)]. split; [rewrite !bmps_app; repeat split; auto; repeat constructor|].
  rewrite !toks_app, E. apply lang_nt_i. change (body R_quotedString) with g_quotedString. unfold g_quotedString. cbn [seqs]. rewrite <- !app_assoc.
  apply lang_seq_i; [apply lang_cls_i; now left|]. apply lang_seq_i; [exact L|]. apply lang_seq_i; [exact F | apply lang_cls_i; now left].
Qed.

(** ** Encoded words *)
Lemma encoded_enc1 w : encoded_word w -> enc1 w.
Proof.
  intros (c & e & t & -> & Hc & He & [Ht Ht']). exists c, e, t. split; [reflexivity|]. split; [now apply full_spec|]. split; [now apply full_spec|].
  apply full_spec. split; [exact Ht|]. eapply Forall_impl; [|exact Ht']. intros r. unfold encoded_char, enc_text_char. rewrite !andb_true_iff, N.leb_le, N.ltb_lt. intuition lia.
Qed.

Lemma encoded_encl l : Forall encoded_word l -> encl (concat l).
Proof. intros H. exists l. split; [reflexivity|]. eapply Forall_impl; [|exact H]. apply encoded_enc1. Qed.

Lemma encl_bmp x : encl x -> bmps x.
Proof.
  intros H. apply encl_atext in H. destruct x as [|r x]; [constructor|]. apply atom_bmp. split; [discriminate | exact H].
Qed.

Lemma encoded_nonnil l : l <> [] -> Forall encoded_word l -> concat l <> [].
Proof. intros N H. destruct H as [|w l' (c & e & t & -> & _) _]; [exfalso; apply N; reflexivity | discriminate]. Qed.

(** ** Words and names *)
Definition g_ditem : gexp := alts [Nt R_word; Nt R_unspaced; Nt R_cfws].

Lemma item_bmp enc i : item_ok enc i -> bmps (item_text i).
Proof.
  destruct i as [a|l|q t|r]; cbn [item_ok item_text].
  - intros [H _]. now apply atom_bmp.
  - intros (_ & _ & H). now apply encl_bmp, encoded_encl.
  - intros H. now apply quoted_lang in H.
  - intros [->| ->]; repeat constructor.
Qed.

Lemma word_lang enc g i g' : ogap g -> item_ok enc i -> is_mark i = false -> ogap g' -> lang (Nt R_word) (toks (g ++ item_text i ++ g')).
Proof.
  intros Hg Hi M Hg'. rewrite !toks_app. apply lang_nt_i. change (body R_word) with g_word. unfold g_word. cbn [alts seqs]. destruct i as [a|l|q t|r]; [| | |discriminate M]; cbn [item_ok item_text] in *.
  - apply lang_altr, lang_altl. apply lang_seq_i; [now apply gap_cfws|]. apply lang_seq_i; [now apply lang_atom_i | now apply gap_cfws].
  - apply lang_altl. change (lang g_encs (toks g ++ toks (concat l) ++ toks g')). destruct Hi as (_ & N & H). apply encl_lang; auto using gap_cfws, encoded_encl, encoded_nonnil.
  - apply lang_altr, lang_altr. apply lang_seq_i; [now apply gap_cfws|]. apply lang_seq_i; [now apply quoted_lang in Hi | now apply gap_cfws].
Qed.

Lemma ditems_lang enc l : forall b, items_ok enc b l -> bmps (name_text l) /\ lang (Star g_ditem) (toks (name_text l)).
Proof.
  induction l as [|[g i] l IH]; intros b H; [split; [constructor | apply lang_star_nil]|].
  destruct H as (Hg & Hi & _ & H). apply IH in H as [B L]. change (name_text ((g, i) :: l)) with ((g ++ item_text i) ++ name_text l).
  split; [rewrite !bmps_app; repeat split; auto; [now apply (wgap_bmp enc) | now apply (item_bmp enc)]|].
  rewrite !toks_app, <- app_assoc. apply (wgap_star enc); [exact Hg | intros u U; now apply lang_altr, lang_altr|]. destruct (is_mark i) eqn:M.
  - destruct i as [| | |r]; try discriminate M. cbn [item_text] in *.
    apply lang_star_cons; [|exact L]. apply lang_altr, lang_altl, lang_nt_i, lang_cls_i. destruct Hi as [->| ->]; vm_compute; auto.
  - apply lang_star_cons; [|exact L]. apply lang_altl. rewrite <- (app_nil_r (item_text i)). apply (word_lang enc []); auto; now left.
Qed.

Lemma name_lang enc l : name_ok enc l -> bmps (name_text l) /\ lang (Nt R_displayName) (toks (name_text l)).
Proof.
  intros [M H]. destruct l as [|[g i] l]; [destruct M|]. pose proof (ditems_lang enc _ _ H) as [B _]. split; [exact B|].
  destruct H as (_ & Hi & _ & H). destruct M as [M Hg]. apply ditems_lang in H as [_ L]. change (name_text ((g, i) :: l)) with ((g ++ item_text i) ++ name_text l).
  rewrite toks_app. apply lang_nt_i. change (body R_displayName) with g_displayName. apply lang_altr. apply lang_seq_i; [|exact L].
  rewrite <- (app_nil_r (item_text i)). apply (word_lang enc); auto. now left.
Qed.

(** a name and a gap *)
Lemma name_gap_lang enc n g : name_ok enc n -> wgap enc g -> lang (Nt R_displayName) (toks (name_text n) ++ toks g).
Proof.
  intros Hn Hg. apply name_lang in Hn as [_ Ln]. apply lang_nt in Ln. apply lang_nt_i. change (body R_displayName) with (Alt (Plus (Nt R_word)) (Seq (Nt R_word) (Star g_ditem))) in *.
  apply lang_altr. assert (L0 : exists u v, toks (name_text n) = u ++ v /\ lang (Nt R_word) u /\ lang (Star g_ditem) v).
  { apply lang_alt in Ln as [Ln|Ln]; [|apply lang_seq in Ln as (u & v & -> & ? & ?); eauto].
    apply lang_plus_inv in Ln as (u & us & -> & H). apply Forall_cons_iff in H as [H1 H2]. exists u, (concat us). split; [reflexivity|]. split; [exact H1|].
    apply lang_star_concat. eapply Forall_impl; [|exact H2]. intros w Hw. now apply lang_altl. }
  destruct L0 as (u & v & -> & Lu & Lv). rewrite <- app_assoc. apply lang_seq_i; [exact Lu|]. apply lang_star_inv in Lv as (us & -> & Lv).
  apply wgap_lang in Hg as [_ (vs & -> & F)]. rewrite <- concat_app. apply lang_star_concat, Forall_app. split; [exact Lv|].
  eapply Forall_impl; [|exact F]. intros w W. now apply lang_altr, lang_altr.
Qed.

(** ** Local parts and domains *)
Lemma dot_bmps d : dot_atom d -> bmps d.
Proof. apply dot_atom_bmp. Qed.

Lemma plain_item enc i : item_ok enc i -> (exists a, i = IAtom a) \/ (exists q t, i = IQuoted q t) -> is_mark i = false.
Proof. intros _ [[a ->]|(q & t & ->)]; reflexivity. Qed.

Lemma words_lang rd enc x v : words_m rd enc x v -> bmps x /\ lang (Nt R_obsLocalPart) (toks x).
Proof.
  intros H. assert (bmps x /\ exists w u, toks x = w ++ u /\ lang (Nt R_word) w /\ lang (Star (seqs [Tok T_Period; Nt R_word])) u) as [B (w & u & E & W & S)].
  { induction H as [g i g' Hg Hi P Hg'|g i g' x v Hg Hi P Hg' H [B (w & u & E & W & S)]].
    - split; [rewrite !bmps_app; repeat split; auto using gap_bmp; now apply (item_bmp enc)|].
      exists (toks (g ++ item_text i ++ g')), []. split; [now rewrite app_nil_r|]. split; [apply (word_lang enc); eauto using plain_item | apply lang_star_nil].
    - split; [rewrite !bmps_app; repeat split; auto using gap_bmp; try (now apply (item_bmp enc)); repeat constructor|].
      exists (toks (g ++ item_text i ++ g')), (toks (bs ".") ++ w ++ u). split; [rewrite !toks_app, E, <- !app_assoc; reflexivity|].
      split; [apply (word_lang enc); eauto using plain_item|]. rewrite app_assoc. apply lang_star_cons; [|exact S].
      apply lang_seq_i; [apply lang_cls_i; now left | exact W]. }
  split; [exact B|]. rewrite E. apply lang_nt_i. apply lang_seq_i; auto.
Qed.

Lemma local_lang rd enc x v : local_m rd enc x v -> bmps x /\ lang (Nt R_localPart) (toks x).
Proof.
  intros [g l g' Hg Hl _ Hg'|x' v' H].
  - split; [rewrite !bmps_app; repeat split; auto using gap_bmp, dot_bmps|]. rewrite !toks_app. apply lang_nt_i, lang_altl.
    apply lang_seq_i; [now apply gap_cfws|]. apply lang_seq_i; [now apply lang_dotAtom_i | now apply gap_cfws].
  - apply words_lang in H as [B L]. split; [exact B|]. apply lang_nt_i, lang_altr, lang_altr, L.
Qed.

Lemma literal_body_lang b : literal_body b -> bmps b /\ exists w u, toks b = w ++ u /\ lang (Star (seqs [Opt (Nt R_fws); Nt R_dtext])) w /\ opt_fws u.
Proof.
  induction 1 as [u Hu|u r b Hu Hr H [B (w & u' & E & L & F)]].
  - split; [now apply ofold_bmp|]. exists [], (toks u). split; [reflexivity|]. split; [apply lang_star_nil | now apply ofold_fws].
  - split; [rewrite !bmps_app; repeat split; auto using ofold_bmp, dtext_bmp, bmps_one|].
    exists ((toks u ++ toks [r]) ++ w), u'. split; [rewrite !toks_app, E, <- !app_assoc; reflexivity|]. split; [|exact F].
    apply lang_star_cons; [|exact L]. apply lang_seq_i; [now apply ofold_fws|]. apply single_lang_i; [reflexivity|].
    apply (class_In _ _ r dtext_class); auto using dtext_bmp.
Qed.

Lemma domain_lang g d g' : ogap g -> domain_m d -> ogap g' -> bmps (g ++ d ++ g') /\ lang (Nt R_domain) (toks (g ++ d ++ g')).
Proof.
  intros Hg H Hg'. assert (bmps d /\ (lang (Nt R_dotAtom) (toks d) \/ lang (Nt R_domainLiteral) (toks d))) as [B L].
  { destruct H as [d H _|b H]; [split; [now apply dot_atom_bmp | left; now apply lang_dotAtom_i]|].
    apply literal_body_lang in H as [B (w & u & E & L & F)]. split; [rewrite !bmps_app; repeat split; auto; repeat constructor|]. right.
    rewrite !toks_app, E. apply lang_nt_i. change (body R_domainLiteral) with g_domainLiteral. unfold g_domainLiteral. cbn [seqs]. rewrite <- !app_assoc.
    apply (lang_seq_i _ _ (toks (bs "["))); [apply lang_cls_i; now left|]. apply lang_seq_i; [exact L|]. apply lang_seq_i; [exact F | apply lang_cls_i; now left]. }
  split; [rewrite !bmps_app; repeat split; auto using gap_bmp|]. rewrite !toks_app. apply lang_nt_i. change (body R_domain) with g_domain. unfold g_domain. cbn [alts seqs].
  destruct L as [L|L]; [apply lang_altl | apply lang_altr, lang_altl]; (apply lang_seq_i; [now apply gap_cfws|]; apply lang_seq_i; [exact L | now apply gap_cfws]).
Qed.

Lemma digits_lang p : p <> [] -> Forall (fun r => digit_char r = true) p -> bmps p /\ lang (Nt R_port) (toks p).
Proof.
  intros N H. assert (B : bmps p).
  { eapply Forall_impl; [|exact H]. cbv beta. intros r Hr. now apply (in_range_bmp 48%N 57%N). }
  split; [exact B|]. apply lang_nt_i. change (body R_port) with g_port. unfold g_port.
  replace (toks p) with (concat (map (fun r => [tok_of r]) p)).
  2: { clear. induction p as [|r p IH]; [reflexivity|]. cbn [map concat]. rewrite IH. reflexivity. }
  apply lang_plus_concat; [destruct p; [congruence | discriminate]|]. apply Forall_map. unfold bmps in B. rewrite Forall_forall in *. intros r Hr. apply lang_cls_i.
  apply (class_In [T_Digit] digit_char r digit_class); auto.
Qed.

Lemma spec_lang rd enc x a : spec_m rd enc x a -> bmps x /\ lang (Nt R_addrSpec) (toks x).
Proof.
  intros [y l g d g' Hl Hg Hd Hg'|y l g d g' p Hl Hg Hd Hg' N Hp]; apply local_lang in Hl as [Bl Ll]; destruct (domain_lang g d g' Hg Hd Hg') as [Bd Ld].
  - split; [rewrite !(bmps_app y), (bmps_app (bs "@")); repeat split; auto; repeat constructor|]. rewrite (toks_app y), (toks_app (bs "@")). apply lang_nt_i.
    change (body R_addrSpec) with g_addrSpec. unfold g_addrSpec. cbn [seqs]. apply lang_seq_i; [exact Ll|]. apply lang_seq_i; [apply lang_cls_i; now left|].
    rewrite <- (app_nil_r (toks _)). apply lang_seq_i; [exact Ld | apply lang_opt_none].
  - destruct (digits_lang p N Hp) as [Bp Lp]. replace (g ++ d ++ g' ++ bs ":" ++ p) with ((g ++ d ++ g') ++ bs ":" ++ p) by (now rewrite <- !app_assoc).
    set (z := g ++ d ++ g') in *. clearbody z.
    split; [rewrite !bmps_app; repeat split; auto; repeat constructor|]. rewrite !toks_app. apply lang_nt_i.
    change (body R_addrSpec) with g_addrSpec. unfold g_addrSpec. cbn [seqs]. apply lang_seq_i; [exact Ll|]. apply lang_seq_i; [apply lang_cls_i; now left|].
    apply lang_seq_i; [exact Ld|]. apply lang_opt_some, lang_seq_i; [apply lang_cls_i; now left | exact Lp].
Qed.

Definition g_rentry : gexp := seqs [Tok T_Comma; Opt (Nt R_cfws); Opt (seqs [Tok T_At; Nt R_domain])].

Lemma route_end_lang e : route_end e -> bmps e /\ exists v, toks e = v ++ toks (bs ":") /\ lang (Star g_rentry) v.
Proof.
  induction 1 as [|g e G E [B (v & Ev & V)]].
  - split; [repeat constructor|]. exists []. split; [reflexivity | apply lang_star_nil].
  - split; [rewrite !bmps_app; repeat split; auto using gap_bmp; repeat constructor|]. exists ((toks (bs ",") ++ toks g ++ []) ++ v). split; [rewrite !toks_app, Ev, <- !app_assoc; reflexivity|].
    apply lang_star_cons; [|exact V]. unfold g_rentry. cbn [seqs]. apply lang_seq_i; [apply lang_cls_i; now left|]. apply lang_seq_i; [now apply gap_cfws | apply lang_opt_none].
Qed.

(** empty entries *)
Definition empties (gs : list (list rune)) : list rune := flat_map (fun g => bs "," ++ g) gs.

Lemma empties_bmp gs : Forall ogap gs -> bmps (empties gs).
Proof. induction 1 as [|g gs G H IH]; [constructor|]. change (bmps ((bs "," ++ g) ++ empties gs)). rewrite !bmps_app. repeat split; auto using gap_bmp. repeat constructor. Qed.

Lemma empties_filler gs : Forall ogap gs -> lang (Star (Alt (Nt R_cfws) (Tok T_Comma))) (toks (empties gs)).
Proof.
  induction 1 as [|g gs G H IH]; [apply lang_star_nil|]. change (empties (g :: gs)) with ((bs "," ++ g) ++ empties gs). rewrite !toks_app, <- app_assoc.
  apply lang_star_cons; [apply lang_altr, lang_cls_i; now left|]. apply gap_cfws, lang_opt_inv in G as [G| ->]; [|exact IH]. apply lang_star_cons; [now apply lang_altl | exact IH].
Qed.

(** empty entries before an entry *)
Lemma empties_entries gs : Forall ogap gs -> forall g w v, ogap g -> lang (Nt R_domain) w -> lang (Star g_rentry) v ->
  lang (Star g_rentry) (toks (bs ",") ++ toks g ++ toks (empties gs) ++ toks (bs "@") ++ w ++ v).
Proof.
  intros H. induction H as [|g' gs G' H IH]; intros g w v G W V; apply gap_cfws in G.
  - change (lang (Star g_rentry) (toks (bs ",") ++ toks g ++ toks (bs "@") ++ w ++ v)). replace (toks (bs ",") ++ toks g ++ toks (bs "@") ++ w ++ v) with ((toks (bs ",") ++ toks g ++ toks (bs "@") ++ w) ++ v) by (now rewrite <- !app_assoc).
    apply lang_star_cons; [|exact V]. unfold g_rentry. cbn [seqs]. apply lang_seq_i; [apply lang_cls_i; now left|]. apply lang_seq_i; [exact G|]. apply lang_opt_some, lang_seq_i; [apply lang_cls_i; now left | exact W].
  - change (empties (g' :: gs)) with ((bs "," ++ g') ++ empties gs). rewrite !toks_app.
    replace (toks (bs ",") ++ toks g ++ ((toks (bs ",") ++ toks g') ++ toks (empties gs)) ++ toks (bs "@") ++ w ++ v) with ((toks (bs ",") ++ toks g ++ []) ++ toks (bs ",") ++ toks g' ++ toks (empties gs) ++ toks (bs "@") ++ w ++ v) by (now rewrite app_nil_r, <- !app_assoc).
    apply lang_star_cons; [|now apply IH]. unfold g_rentry. cbn [seqs]. apply lang_seq_i; [apply lang_cls_i; now left|]. apply lang_seq_i; [exact G | apply lang_opt_none].
Qed.

Lemma route_lang r : route_m r -> bmps r /\ exists gs w v, toks r = toks (empties gs) ++ toks (bs "@") ++ w ++ v ++ toks (bs ":") /\ Forall ogap gs /\ lang (Nt R_domain) w /\ lang (Star g_rentry) v.
Proof.
  induction 1 as [g d g' e Hg Hd Hg' He|g d g' g2 r Hg Hd Hg' Hg2 H [B (gs & w & v & E & F & W & V)]|g r Hg H [B (gs & w & v & E & F & W & V)]].
  - destruct (domain_lang g d g' Hg Hd Hg') as [Bd Ld]. apply route_end_lang in He as [Be (v & Ev & V)].
    replace (bs "@" ++ g ++ d ++ g' ++ e) with (bs "@" ++ (g ++ d ++ g') ++ e) by (now rewrite <- !app_assoc). set (z := g ++ d ++ g') in *. clearbody z.
    split; [rewrite !bmps_app; repeat split; auto; repeat constructor|]. exists [], (toks z), v. split; [rewrite !toks_app, Ev; reflexivity|]. split; [constructor|]. split; [exact Ld | exact V].
  - destruct (domain_lang g d g' Hg Hd Hg') as [Bd Ld].
    replace (bs "@" ++ g ++ d ++ g' ++ bs "," ++ g2 ++ r) with (bs "@" ++ (g ++ d ++ g') ++ bs "," ++ g2 ++ r) by (now rewrite <- !app_assoc). set (z := g ++ d ++ g') in *. clearbody z.
    split; [rewrite !bmps_app; repeat split; auto using gap_bmp; repeat constructor|]. exists [], (toks z), (toks (bs ",") ++ toks g2 ++ toks (empties gs) ++ toks (bs "@") ++ w ++ v).
    split; [rewrite !toks_app, E, <- !app_assoc; reflexivity|]. split; [constructor|]. split; [exact Ld|]. now apply empties_entries.
  - split; [rewrite !bmps_app; repeat split; auto using gap_bmp; repeat constructor|]. exists (g :: gs), w, v. split; [|split; [now constructor | auto]].
    change (empties (g :: gs)) with ((bs "," ++ g) ++ empties gs). rewrite !toks_app, E, <- !app_assoc. reflexivity.
Qed.

Definition g_filler : gexp := Star (Alt (Nt R_cfws) (Tok T_Comma)).

Lemma led_lang enc r : led_route enc r -> bmps r /\ exists f w v, toks r = f ++ toks (bs "@") ++ w ++ v ++ toks (bs ":") /\ lang g_filler f /\ lang (Nt R_domain) w /\ lang (Star g_rentry) v.
Proof.
  induction 1 as [r H|g r G H [B (f & w & v & E & F & W & V)]].
  - apply route_lang in H as [B (gs & w & v & E & F & W & V)]. split; [exact B|]. exists (toks (empties gs)), w, v. split; [exact E|]. split; [now apply empties_filler | auto].
  - split; [rewrite !bmps_app; repeat split; auto; [repeat constructor | now apply (wgap_bmp enc)]|]. exists (toks (bs ",") ++ toks g ++ f), w, v.
    split; [rewrite !toks_app, E, <- !app_assoc; reflexivity|]. split; [|auto]. apply lang_star_cons; [apply lang_altr, lang_cls_i; now left|].
    apply (wgap_star enc); [exact G | intros u U; now apply lang_altl | exact F].
Qed.

Lemma angle_lang rd enc g x a g' : ogap g -> angle_m rd enc x a -> ogap g' -> bmps (g ++ x ++ g') /\ lang (Nt R_angleAddr) (toks (g ++ x ++ g')).
Proof.
  intros Hg H Hg'. destruct H as [x a H| |h r x a Hh Hr H].
  - apply spec_lang in H as [B L]. split; [rewrite !bmps_app; repeat split; auto using gap_bmp; repeat constructor|]. rewrite !toks_app, <- !app_assoc.
    apply lang_nt_i, lang_altl. cbn [seqs]. apply lang_seq_i; [now apply gap_cfws|]. apply lang_seq_i; [apply lang_cls_i; now left|].
    apply lang_seq_i; [now apply lang_opt_some|]. apply lang_seq_i; [apply lang_cls_i; now left | now apply gap_cfws].
  - split; [rewrite !bmps_app; repeat split; auto using gap_bmp; repeat constructor|]. rewrite !toks_app, <- !app_assoc.
    apply lang_nt_i, lang_altl. cbn [seqs]. apply lang_seq_i; [now apply gap_cfws|]. apply lang_seq_i; [apply lang_cls_i; now left|].
    apply (lang_seq_i _ _ [] (toks (bs ">") ++ toks g')); [apply lang_opt_none|]. apply (lang_seq_i _ _ (toks (bs ">")) (toks g')); [apply lang_cls_i; now left | now apply gap_cfws].
  - apply spec_lang in H as [B L]. apply led_lang in Hr as [Br (gs & w & v & E & F & W & V)].
    split; [rewrite !bmps_app; repeat split; eauto using gap_bmp, wgap_bmp; repeat constructor|]. rewrite !toks_app, E, <- !app_assoc.
    apply lang_nt_i, lang_altr, lang_nt_i. change (body R_obsAngleAddr) with g_obsAngleAddr. unfold g_obsAngleAddr. cbn [seqs]. apply lang_seq_i; [now apply gap_cfws|]. apply lang_seq_i; [apply lang_cls_i; now left|].
    replace (toks h ++ gs ++ toks (bs "@") ++ w ++ v ++ toks (bs ":") ++ toks x ++ toks (bs ">") ++ toks g')
      with ((((toks h ++ gs) ++ toks (bs "@") ++ w ++ v) ++ toks (bs ":")) ++ toks x ++ toks (bs ">") ++ toks g') by (now rewrite <- !app_assoc).
    apply lang_seq_i; [|apply lang_seq_i; [exact L|]; apply lang_seq_i; [apply lang_cls_i; now left | now apply gap_cfws]].
    apply lang_nt_i. change (body R_obsRoute) with g_obsRoute. apply lang_seq_i; [|apply lang_cls_i; now left]. apply lang_nt_i. change (body R_obsDomainList) with g_obsDomainList. unfold g_obsDomainList. cbn [seqs].
    apply lang_seq_i; [|apply lang_seq_i; [apply lang_cls_i; now left|]; apply lang_seq_i; [exact W | exact V]].
    apply (wgap_star enc); [exact Hh | intros u U; now apply lang_altl | exact F].
Qed.

Lemma mailbox_lang rd enc x m : mailbox_m rd enc x m -> bmps x /\ lang (Nt R_mailbox) (toks x).
Proof.
  intros [x' a H|g x' a g' Hg H Hg'|l g x' a g' Hl Hg H Hg'].
  - apply spec_lang in H as [B L]. split; [exact B|]. now apply lang_nt_i, lang_altr.
  - destruct (angle_lang _ _ _ _ _ _ Hg H Hg') as [B L]. split; [exact B|]. apply lang_nt_i, lang_altl, lang_nt_i. change (body R_nameAddr) with g_nameAddr. unfold g_nameAddr. cbn [seqs].
    apply (lang_seq_i _ _ []); [apply lang_opt_none | exact L].
  - destruct (angle_lang _ _ [] _ _ _ (or_introl eq_refl) H Hg') as [B L]. pose proof (name_gap_lang enc l g Hl Hg) as Ll. apply name_lang in Hl as [Bl _]. split; [rewrite (bmps_app (name_text l)), (bmps_app g); repeat split; auto; now apply (wgap_bmp enc)|].
    cbn [app] in L. rewrite (toks_app (name_text l)), (toks_app g), app_assoc. apply lang_nt_i, lang_altl, lang_nt_i. change (body R_nameAddr) with g_nameAddr. unfold g_nameAddr. cbn [seqs].
    apply lang_seq_i; [now apply lang_opt_some | exact L].
Qed.

(** ** Lists *)
Lemma lang_seq_nil a b v : lang a [] -> lang b v -> lang (Seq a b) v.
Proof. intros H1 H2. exact (lang_seq_i a b [] v H1 H2). Qed.

Lemma mailboxes_lang rd enc x l : mailboxes_m rd enc x l -> bmps x /\ exists y z, x = y ++ z /\ lang (Nt R_mailbox) (toks y) /\ mtail (toks z).
Proof.
  induction 1 as [x a H|x a s y l H Hs H' [B (y1 & z1 & -> & L & M)]]; apply mailbox_lang in H as [Bx Lx].
  - split; [exact Bx|]. exists x, []. rewrite app_nil_r. repeat split; auto. constructor.
  - split; [rewrite (bmps_app x), (bmps_app [s]); repeat split; auto; apply bmps_one; destruct Hs as [->| ->]; reflexivity|]. exists x, ([s] ++ y1 ++ z1). split; [reflexivity|]. split; [exact Lx|].
    change (toks ([s] ++ y1 ++ z1)) with (tok_of s :: toks (y1 ++ z1)). rewrite toks_app. constructor; auto. destruct Hs as [->| ->]; [left | right]; reflexivity.
Qed.

Section sparse.
  Variables (P : list rune -> list addr -> Prop) (g : gexp).
  Hypothesis HP : forall x l, P x l -> bmps x /\ lang g (toks x).

  Definition g_more : gexp := seqs [Tok T_Comma; Opt (alts [g; Nt R_cfws])].

  Lemma comma_tok : tt (tok_of 44%N) = T_Comma.
  Proof. reflexivity. Qed.

  Lemma gap_more x : ogap x -> lang g_more (toks (bs "," ++ x)).
  Proof.
    intros H. rewrite toks_app. apply lang_seq_i; [apply lang_cls_i; now left|]. apply gap_cfws, lang_opt_inv in H as [H| ->]; [apply lang_opt_some, lang_altr, H | apply lang_opt_none].
  Qed.

  Lemma part_more x l : P x l -> lang g_more (toks (bs "," ++ x)).
  Proof. intros H. apply HP in H as [_ H]. rewrite toks_app. apply lang_seq_i; [apply lang_cls_i; now left|]. apply lang_opt_some, lang_altl, H. Qed.

  Lemma sparse_tail b y l : sparse P b y l -> bmps y /\ lang (Star g_more) (toks (bs "," ++ y)).
  Proof.
    induction 1 as [x l H|x H|x l b y l' H H' [B L]|x b y l' H H' [B L]].
    - split; [now apply HP in H|]. rewrite <- (app_nil_r (toks _)). apply lang_star_cons; [now apply (part_more x l) | apply lang_star_nil].
    - split; [now apply gap_bmp|]. rewrite <- (app_nil_r (toks _)). apply lang_star_cons; [now apply gap_more | apply lang_star_nil].
    - split; [rewrite !bmps_app; repeat split; auto; [now apply HP in H | repeat constructor]|]. rewrite (app_assoc (bs ",") x), (toks_app (bs "," ++ x)).
      apply lang_star_cons; [now apply (part_more x l) | exact L].
    - split; [rewrite !bmps_app; repeat split; auto; [now apply gap_bmp | repeat constructor]|]. rewrite (app_assoc (bs ",") x), (toks_app (bs "," ++ x)).
      apply lang_star_cons; [now apply gap_more | exact L].
  Qed.

  Definition g_junk : gexp := seqs [Opt (Nt R_cfws); Tok T_Comma].

  Lemma gap_junk x : ogap x -> lang g_junk (toks (x ++ bs ",")).
  Proof. intros H. rewrite toks_app. apply lang_seq_i; [now apply gap_cfws | apply lang_cls_i; now left]. Qed.

  Lemma sparse_some b y l : sparse P b y l -> b = true -> bmps y /\ lang (seqs [Star g_junk; g; Star g_more]) (toks y).
  Proof.
    induction 1 as [x l H|x H|x l b y l' H H' IH|x b y l' H H' IH]; intros E; try discriminate E.
    - apply HP in H as [B L]. split; [exact B|]. cbn [seqs]; apply lang_seq_nil; [apply lang_star_nil|]. rewrite <- (app_nil_r (toks x)). apply lang_seq_i; [exact L | apply lang_star_nil].
    - apply sparse_tail in H' as [B' L']. apply HP in H as [B L]. split; [rewrite !bmps_app; repeat split; auto; repeat constructor|].
      cbn [seqs]; apply lang_seq_nil; [apply lang_star_nil|]. rewrite toks_app. apply lang_seq_i; [exact L | exact L'].
    - apply IH in E as [B L]. split; [rewrite !bmps_app; repeat split; auto; [now apply gap_bmp | repeat constructor]|].
      cbn [seqs] in *. apply lang_seq in L as (u & v & E & Lu & Lv). rewrite (app_assoc x), toks_app, E, app_assoc. apply lang_seq_i; [|exact Lv].
      apply lang_star_cons; [now apply gap_junk | exact Lu].
  Qed.

  Lemma sparse_none b y l : sparse P b y l -> b = false -> bmps y /\ exists us u, toks y = concat us ++ u /\ Forall (lang g_junk) us /\ opt_cfws u.
  Proof.
    induction 1 as [x l H|x H|x l b y l' H H' IH|x b y l' H H' IH]; intros E; try discriminate E.
    - split; [now apply gap_bmp|]. exists [], (toks x). repeat split; auto. now apply gap_cfws.
    - apply IH in E as [B (us & u & Eq & L & F)]. split; [rewrite !bmps_app; repeat split; auto; [now apply gap_bmp | repeat constructor]|].
      exists (toks (x ++ bs ",") :: us), u. split; [rewrite (app_assoc x), toks_app, Eq; cbn [concat]; now rewrite <- app_assoc|]. split; [|exact F].
      constructor; [now apply gap_junk | exact L].
  Qed.
End sparse.

Lemma one_mailbox_lang rd enc x l : one_mailbox rd enc x l -> bmps x /\ lang (Nt R_mailbox) (toks x).
Proof. intros (a & H & _). now apply mailbox_lang in H. Qed.

Lemma members_lang rd enc b y l : sparse (one_mailbox rd enc) b y l -> bmps y /\ lang (Opt (Nt R_groupList)) (toks y).
Proof.
  intros H. destruct b.
  - apply (sparse_some _ (Nt R_mailbox) (one_mailbox_lang rd enc)) in H as [B L]; [|reflexivity]. split; [exact B|]. apply lang_opt_some, lang_nt_i, lang_altl, lang_nt_i, lang_altr, lang_nt_i. exact L.
  - apply (sparse_none _) in H as [B (us & u & E & L & F)]; [|reflexivity]. split; [exact B|]. rewrite E. destruct us as [|v us].
    + apply lang_opt_inv in F as [F| ->]; [|apply lang_opt_none]. apply lang_opt_some, lang_nt_i, lang_altr, lang_altl. exact F.
    + apply lang_opt_some, lang_nt_i, lang_altr, lang_altr, lang_nt_i. change (body R_obsGroupList) with g_obsGroupList. apply lang_seq_i; [now apply lang_plus_concat | exact F].
Qed.

Lemma group_lang rd enc x l : group_m rd enc x l -> bmps x /\ lang (Nt R_group) (toks x).
Proof.
  intros [n g b y l' s g' Hn Hg Hy Hs Hg' _]. pose proof (name_gap_lang enc n g Hn Hg) as Lng. apply name_lang in Hn as [Bn _]. apply members_lang in Hy as [By Ly].
  assert (Bs : bmps s /\ lang (Opt (Tok T_Semicolon)) (toks s)).
  { destruct Hs as [->| ->]; [split; [constructor | apply lang_opt_none] | split; [repeat constructor | apply lang_opt_some, lang_cls_i; now left]]. }
  destruct Bs as [Bs Ls]. split; [rewrite !bmps_app; repeat split; eauto using gap_bmp, wgap_bmp; repeat constructor|].
  rewrite !toks_app, app_assoc. set (z := toks (name_text n) ++ toks g) in *. clearbody z. apply lang_nt_i. change (body R_group) with g_group. unfold g_group. cbn [seqs].
  cbn [seqs]; apply lang_seq_nil; [apply lang_opt_none|]. apply lang_seq_i; [exact Lng|]. apply lang_seq_i; [apply lang_cls_i; now left|]. apply lang_seq_i; [exact Ly|].
  apply lang_seq_nil; [apply lang_opt_none|]. apply lang_seq_i; [exact Ls | now apply gap_cfws].
Qed.

Lemma address_lang rd enc x l : address_m rd enc x l -> bmps x /\ lang (Nt R_address) (toks x).
Proof.
  intros [(a & H & _)|H]; [apply mailbox_lang in H as [B L] | apply group_lang in H as [B L]]; (split; [exact B|]; apply lang_nt_i); [now apply lang_altl | now apply lang_altr].
Qed.

Lemma addresses_lang rd enc x l : addresses_m rd enc x l -> bmps x /\ lang (Nt R_addressList) (toks x ++ [eof_tok]).
Proof.
  intros H. assert (bmps x /\ exists u v, toks x = u ++ v /\ lang (Nt R_address) u /\ lang (Star g_item) v) as [B (u & v & -> & Lu & Lv)].
  { induction H as [x l H|x l s y l' H Hs H' [B (u & v & E & Lu & Lv)]]; apply address_lang in H as [Bx Lx].
    - split; [exact Bx|]. exists (toks x), []. rewrite app_nil_r. repeat split; auto. apply lang_star_nil.
    - split; [rewrite !bmps_app; repeat split; auto; apply bmps_one; destruct Hs as [->| ->]; reflexivity|]. exists (toks x), ((toks [s] ++ u) ++ v).
      split; [rewrite !toks_app, E, <- !app_assoc; reflexivity|]. split; [exact Lx|]. apply lang_star_cons; [|exact Lv]. apply lang_seq_i; [|exact Lu]. apply lang_cls_i.
      destruct Hs as [->| ->]; vm_compute; auto. }
  split; [exact B|]. apply lang_nt_i, lang_altl. rewrite <- app_assoc. apply lang_seq_i; [exact Lu|]. apply lang_seq_i; [exact Lv | apply lang_cls_i; now left].
Qed.

Lemma sparse_lang rd enc x l : sparse (address_m rd enc) true x l -> bmps x /\ lang (Nt R_addressList) (toks x ++ [eof_tok]).
Proof.
  intros H. apply (sparse_some _ (Nt R_address) (address_lang rd enc)) in H as [B L]; [|reflexivity]. split; [exact B|].
  apply lang_nt_i, lang_altr. apply lang_seq_i; [now apply lang_nt_i | apply lang_cls_i; now left].
Qed.
