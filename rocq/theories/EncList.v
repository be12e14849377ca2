(** How an element of a list is read, and how the list is. *)
From Coq Require Import String List NArith ZArith Bool Arith Lia.
From Verif Require Import Lexer Grammar Utf8 Strs Mime GoTime Parser Walker Api Spec ParserFacts
  WalkerFacts Static Total Cfws LangFacts LexFacts Utf8Facts First DateSpec AddrSpec Chosen AddrSem CharFacts PropApi PropInv
  ScanSpec ScanFacts ScanEnc ScanWords ScanName EncAlign EncSel EncBox.
Import ListNotations.

(** ** An address without brackets has no name *)
Definition dnt (t : tok) : Prop := In (tt t) (T_Period :: T_At :: types R_atext).
(** the first token is not part of a name, not an opening bracket and not part of a gap *)
Definition bar_types : list ttype := [T_Comma; T_Semicolon; T_EOF; T_LBracket; T_Colon].
Definition bar (y : word) : Prop := match y with t :: _ => memb (tt t) bar_types = true | [] => False end.
Lemma bar_not t y ty : bar (t :: y) -> tt t = ty -> memb ty bar_types = false -> False.
Proof. cbn [bar]. intros H E K. rewrite E in H. congruence. Qed.
Lemma bar_solid y : bar y -> solid y.
Proof.
  destruct y as [|t y]; [easy|]. cbn [bar solid]. intros H. apply memb_In in H.
  assert (G : forallb (fun ty => negb (memb ty gap_start)) bar_types = true) by (vm_compute; reflexivity).
  rewrite forallb_forall in G. specialize (G _ H). now destruct (memb (tt t) gap_start).
Qed.
Lemma bar_start y : bar y -> no_start y.
Proof.
  destruct y as [|t y]; [easy|]. cbn [bar no_start]. intros H. apply memb_In in H.
  assert (G : forallb (fun ty => negb (memb ty word_start)) bar_types = true) by (vm_compute; reflexivity).
  rewrite forallb_forall in G. specialize (G _ H). now destruct (memb (tt t) word_start).
Qed.
Lemma dnt_solid t x : dnt t -> solid (t :: x).
Proof.
  intros H. cbn [solid]. assert (G : forallb (fun y => negb (memb y gap_start)) (T_Period :: T_At :: types R_atext) = true) by (vm_compute; reflexivity).
  rewrite forallb_forall in G. specialize (G _ H). now destruct (memb (tt t) gap_start).
Qed.

(** a word: encoded words, or an atom or quoted string between gaps *)
Lemma word_lang (e : wenv) w : lang (Nt R_word) w -> exists u c x, w = u ++ c ++ x /\ opt_cfws u /\
  (lang (Nt R_encodedWord) c \/ (lang (Nt R_atom) c /\ opt_cfws x) \/ (lang (Nt R_quotedString) c /\ (exists v, r_qstring c v) /\ opt_cfws x)).
Proof.
  intros H. apply lang_nt in H. change (body R_word) with g_word in H. unfold g_word in H. cbn [alts] in H.
  apply lang_alt in H as [H|H]; [|apply lang_alt in H as [H|H]].
  - apply lang_seq in H as (a & b & -> & A & _). fold g_enc1 in A. apply lang_enc1 in A as (u & c & u' & -> & U & L & U').
    exists u, c, (u' ++ b). rewrite <- !app_assoc. auto.
  - cbn [seqs] in H. apply lang_seq in H as (u & b & -> & U & H). apply lang_seq in H as (c & x & -> & C & X). exists u, c, x. split; [reflexivity|]. split; [exact U|]. right. left. auto.
  - cbn [seqs] in H. apply lang_seq in H as (u & b & -> & U & H). apply lang_seq in H as (c & x & -> & C & X). exists u, c, x.
    split; [reflexivity|]. split; [exact U|]. right. right. split; [exact C|]. split; [|exact X].
    apply lang_nt in C as (f & D & <-). destruct (den_qstring e f D) as (v & _ & R). exists v. exact R.
Qed.

(** What is left of an address without brackets while a name is being read. *)
Inductive rest : word -> Prop :=
| rs_run : forall z s g y, opt_cfws z -> s <> [] -> Forall dnt s -> no_pair s -> opt_cfws g -> bar y -> rest (z ++ s ++ g ++ y)
| rs_gap : forall z y, opt_cfws z -> bar y -> rest (z ++ y)
| rs_quoted : forall z q v s g y, opt_cfws z -> lang (Nt R_quotedString) q -> r_qstring q v -> Forall lexed q ->
    s <> [] -> Forall dnt s -> no_pair s -> opt_cfws g -> bar y -> rest (z ++ q ++ s ++ g ++ y).

Lemma run_solid s x : s <> [] -> Forall dnt s -> solid (s ++ x).
Proof. intros N A. destruct s as [|t s]; [congruence|]. cbn [app]. apply dnt_solid. now inversion A. Qed.
Lemma quo_solid q x : lang (Nt R_quotedString) q -> solid (q ++ x).
Proof. intros H. destruct (quoted_head q H) as (t & q' & -> & E). cbn [app solid]. now rewrite E. Qed.
Lemma dnt_ty t ty : dnt t -> tt t = ty -> memb ty (T_Period :: T_At :: types R_atext) = false -> False.
Proof. unfold dnt. intros H E K. rewrite E in H. apply memb_In in H. congruence. Qed.

Lemma rest_word (e : wenv) w x : lang (Nt R_word) w -> rest (w ++ x) -> Forall lx (w ++ x) -> rest x.
Proof.
  intros H R F. destruct (word_lang e w H) as (u & c & k & -> & U & C). rewrite <- !app_assoc in R, F. remember (u ++ c ++ k ++ x) as r eqn:Er.
  assert (Cs : forall m, solid (c ++ m)).
  { intros m. destruct C as [C|[[C _]|[C _]]]; [now apply encoded_solid | | now apply quo_solid]. destruct (atom_head c C) as (t & a & -> & T). cbn [app]. apply adott_solid. now right. }
  destruct R as [z s g y Z N A P G B|z y Z B|z q v s g y Z Q V Lq N A P G B].
  - destruct (gap_whole z (s ++ g ++ y) u (c ++ k ++ x)) as [<- E]; auto; [now apply run_solid|]. apply Forall_app in F as [_ F].
    destruct C as [C|[[C K]|[C _]]].
    + exfalso. destruct (encoded_head c C) as (a & b & c' & -> & Ea & Eb). destruct s as [|s1 [|s2 s]]; [congruence| |]; cbn [app] in E.
      * injection E as -> E. destruct g as [|g1 g]; cbn [app] in E.
        -- destruct y as [|y1 y]; [easy|]. injection E as -> _. apply (bar_not b y T_Question B Eb). reflexivity.
        -- injection E as -> _. apply (solid_no b g [] G). cbn [solid]. now rewrite Eb.
      * injection E as -> -> _. exact (P [] a b s eq_refl Ea Eb).
    + assert (Aa : Forall (fun t => In (tt t) (types R_atext)) c) by (apply alphabet_lang in C; eapply Forall_impl; [|exact C]; intros t Ht; eapply subset_In; [|exact Ht]; vm_compute; reflexivity).
      destruct (app_cases _ _ _ _ E) as [(m & -> & M)|(m & -> & M)].
      * destruct m as [|b m].
        -- cbn [app] in M. apply Forall_app in F as [_ F]. symmetry in M. destruct (gap_part g y k x) as (z' & _ & -> & Z'); auto using bar_solid.
           now apply rs_gap.
        -- assert (Sm : solid ((b :: m) ++ g ++ y)) by (apply run_solid; [discriminate|]; now apply Forall_app in A as [_ A]).
           rewrite <- app_assoc in F. apply Forall_app in F as [_ F]. symmetry in M. destruct (gap_none _ k x Sm K F M) as [-> ->].
           apply (rs_run [] (b :: m) g y); auto using no_gap; [discriminate | now apply Forall_app in A as [_ A] | now apply no_pair_app in P].
      * destruct m as [|b m].
        -- cbn [app] in M. apply Forall_app in F as [_ F]. destruct (gap_part g y k x) as (z' & _ & -> & Z'); auto using bar_solid.
           now apply rs_gap.
        -- exfalso. cbn [app] in M. apply Forall_app in Aa as [_ Aa]. apply Forall_inv in Aa. destruct g as [|g1 g]; cbn [app] in M.
           ++ destruct y as [|y1 y]; [easy|]. injection M as -> _. pose proof (bar_start _ B) as Bs. cbn [no_start] in Bs. apply word_start_i in Aa. congruence.
           ++ injection M as -> _. apply (solid_no b g [] G). apply adott_solid. now right.
    + exfalso. destruct (quoted_head c C) as (t & c' & -> & Et). destruct s as [|s1 s]; [congruence|]. cbn [app] in E. injection E as -> _.
      apply Forall_inv in A. apply (dnt_ty t _ A Et). vm_compute. reflexivity.
  - exfalso. destruct (gap_whole z y u (c ++ k ++ x)) as [<- E]; auto using bar_solid. destruct (word_shape _ H) as (u2 & t & r & E2 & U2 & T).
    assert (Hc : exists b c', c = b :: c' /\ memb (tt b) word_start = true).
    { destruct C as [C|[[C _]|[C _]]].
      - destruct (encoded_head c C) as (a & b & c' & -> & Ea & Eb). exists a, (b :: c'). split; [reflexivity|]. rewrite Ea. apply word_start_i. apply memb_In. exact equal_atext.
      - destruct (atom_head c C) as (a & c' & -> & Ha). exists a, c'. split; [reflexivity|]. now apply word_start_i.
      - destruct (quoted_head c C) as (a & c' & -> & Ha). exists a, c'. split; [reflexivity|]. now rewrite Ha. }
    destruct Hc as (b & c' & -> & Hb). cbn [app] in E. rewrite E in B. apply bar_start in B. cbn [no_start] in B. congruence.
  - destruct (gap_whole z (q ++ s ++ g ++ y) u (c ++ k ++ x)) as [<- E]; auto; [now apply quo_solid|]. apply Forall_app in F as [_ F].
    destruct (quoted_head q Q) as (t & q' & Eq & Et). destruct C as [C|[[C K]|[C [[v' C'] K]]]].
    + exfalso. destruct (encoded_head c C) as (a & b & c' & -> & Ea & Eb). rewrite Eq in E. cbn [app] in E. injection E as -> _. rewrite Ea in Et. discriminate.
    + exfalso. destruct (atom_head c C) as (a & c' & -> & Ha). rewrite Eq in E. cbn [app] in E. injection E as -> _. rewrite Et in Ha. apply memb_In in Ha. discriminate.
    + assert (LC : Forall lexed c) by (apply (lx_lexed (Nt R_quotedString) c (k ++ x)); [exact C | rewrite <- E; exact F | exact quo_alpha]).
      destruct (qstring_code q c v v' (s ++ g ++ y) (k ++ x) V C' Lq LC E) as (-> & E2 & _). apply Forall_app in F as [_ F].
      destruct (gap_none (s ++ g ++ y) k x) as [-> ->]; auto; [now apply run_solid|]. now apply (rs_run [] s g y); auto using no_gap.
Qed.

Lemma rest_solid_token t x : rest (t :: x) -> memb (tt t) gap_start = false -> Forall lx (t :: x) ->
  (dnt t /\ rest x) \/ memb (tt t) (T_DQuote :: bar_types) = true.
Proof.
  intros R T F. remember (t :: x) as r eqn:Er. destruct R as [z s g y Z N A P G B|z y Z B|z q v s g y Z Q V Lq N A P G B].
  - destruct z as [|z1 z]; [|cbn [app] in Er; injection Er as -> _; exfalso; apply cfws_head in Z; apply memb_In in Z; congruence].
    destruct s as [|s1 s]; [congruence|]. cbn [app] in Er. injection Er as -> <-. left. inversion A; subst. split; [assumption|].
    destruct s as [|s2 s].
    + cbn [app]. now apply rs_gap.
    + apply (rs_run [] (s2 :: s) g y); auto using no_gap; [discriminate|]. exact (no_pair_app [t] (s2 :: s) P).
  - destruct z as [|z1 z]; [|cbn [app] in Er; injection Er as -> _; exfalso; apply cfws_head in Z; apply memb_In in Z; congruence].
    cbn [app] in Er. subst y. cbn [bar] in B. right. apply memb_In. right. now apply memb_In.
  - destruct z as [|z1 z]; [|cbn [app] in Er; injection Er as -> _; exfalso; apply cfws_head in Z; apply memb_In in Z; congruence].
    destruct (quoted_head q Q) as (a & q' & -> & Ea). cbn [app] in Er. injection Er as -> _. right. now rewrite Ea.
Qed.

Lemma rest_gap w x : opt_cfws w -> rest (w ++ x) -> Forall lx (w ++ x) -> rest x.
Proof.
  intros W R F. remember (w ++ x) as r eqn:Er. destruct R as [z s g y Z N A P G B|z y Z B|z q v s g y Z Q V Lq N A P G B].
  - destruct (gap_part z (s ++ g ++ y) w x) as (z' & _ & -> & Z'); auto; [now apply run_solid|]. now apply rs_run.
  - destruct (gap_part z y w x) as (z' & _ & -> & Z'); auto using bar_solid. now apply rs_gap.
  - destruct (gap_part z (q ++ s ++ g ++ y) w x) as (z' & _ & -> & Z'); auto; [now apply quo_solid|]. now apply (rs_quoted z' q v).
Qed.

Lemma rest_display (e : wenv) w x : lang (Nt R_displayName) w -> rest (w ++ x) -> Forall lx (w ++ x) -> rest x.
Proof.
  intros H. assert (X : exists ws, w = concat ws /\ Forall (lang (alts [Nt R_word; Nt R_unspaced; Nt R_cfws])) ws).
  { apply lang_nt in H. change (body R_displayName) with g_displayName in H. unfold g_displayName in H. cbn [alts] in H.
    apply lang_alt in H as [H|H].
    - apply lang_plus_inv in H as (u & us & -> & H). exists (u :: us). split; [reflexivity|]. eapply Forall_impl; [|exact H].
      intros y Y. cbn [alts]. now apply lang_altl.
    - cbn [seqs] in H. apply lang_seq in H as (u & v & -> & A & H). apply lang_star_inv in H as (us & -> & H).
      exists (u :: us). split; [reflexivity|]. constructor; [cbn [alts]; now apply lang_altl | exact H]. }
  destruct X as (ws & -> & K). clear H. revert x. induction K as [|w ws H K IH]; intros x R F; [exact R|].
  cbn [concat] in R, F. rewrite <- app_assoc in R, F. apply IH; [|now apply Forall_app in F as [_ F]].
  cbn [alts] in H. apply lang_alt in H as [H|H]; [now apply (rest_word e w)|]. apply lang_alt in H as [H|H].
  - apply lang_nt in H. change (body R_unspaced) with g_unspaced in H. unfold g_unspaced in H. apply lang_cls in H as (t & -> & T). cbn [app] in R, F.
    assert (Q : memb (tt t) gap_start = false /\ memb (tt t) (T_DQuote :: bar_types) = false).
    { destruct T as [<-|[<-|[]]]; split; vm_compute; reflexivity. }
    destruct Q as [Q1 Q2]. destruct (rest_solid_token t _ R Q1 F) as [[_ R']|K']; [exact R' | congruence].
  - apply (rest_gap w); [now apply lang_opt_some | exact R | exact F].
Qed.

Lemma angle_lang w : lang (Nt R_angleAddr) w -> exists u lt x, w = u ++ lt :: x /\ opt_cfws u /\ tt lt = T_Less.
Proof.
  intros H. apply lang_nt in H. change (body R_angleAddr) with g_angleAddr in H. unfold g_angleAddr in H. cbn [alts] in H.
  apply lang_alt in H as [H|H].
  - cbn [seqs] in H. apply lang_seq in H as (u & b & -> & U & H). apply lang_seq in H as (c & x & -> & C & X). apply lang_cls in C as (t & -> & [T|[]]). exists u, t, x. auto.
  - apply lang_nt in H. change (body R_obsAngleAddr) with g_obsAngleAddr in H. unfold g_obsAngleAddr in H.
    cbn [seqs] in H. apply lang_seq in H as (u & b & -> & U & H). apply lang_seq in H as (c & x & -> & C & X). apply lang_cls in C as (t & -> & [T|[]]). exists u, t, x. auto.
Qed.

Lemma rest_no_angle (e : wenv) w V : rest w -> Forall lx w -> ~ viable (Nt R_nameAddr) V w.
Proof.
  intros R F (a & b & -> & H & _). apply lang_nt in H. change (body R_nameAddr) with g_nameAddr in H. unfold g_nameAddr in H. cbn [seqs] in H.
  apply lang_seq in H as (n & x & -> & N & A). rewrite <- app_assoc in R, F. assert (R' : rest (x ++ b)).
  { apply lang_opt_inv in N as [N| ->]; [|exact R]. now apply (rest_display e n). }
  apply Forall_app in F as [_ F]. destruct (angle_lang x A) as (u & lt & y & -> & U & L). rewrite <- app_assoc in R', F.
  apply (rest_gap u) in R'; auto. apply Forall_app in F as [_ F]. cbn [app] in R', F.
  destruct (rest_solid_token lt _ R') as [[D _]|K]; auto; [now rewrite L | | rewrite L in K; discriminate].
  apply (dnt_ty lt _ D L). vm_compute. reflexivity.
Qed.

(** ** Elements *)
Record tspec (l : word) (v : gostring) (t : tok) (d : word) : Prop := mkTspec {
  ts_local : tlocal l v; ts_ll : Forall lexed l; ts_at : tt t = T_At; ts_domain : tported d; ts_ld : Forall lexed d }.

Inductive tbox (e : wenv) : word -> addr -> Prop :=
| tb_spec : forall u l v t d g, opt_cfws u -> tspec l v t d -> opt_cfws g -> g = [] \/ tdomain d -> tbox e (u ++ l ++ t :: d ++ g) (mkAddr [] (at_join v (text d)))
| tb_angle : forall z lt l v t d gt g, opt_cfws z -> tt lt = T_Less -> tspec l v t d -> tt gt = T_Greater -> opt_cfws g ->
    tbox e (z ++ lt :: l ++ t :: d ++ gt :: g) (mkAddr [] (at_join v (text d)))
| tb_named : forall u L lt l v t d gt g, opt_cfws u -> L <> [] -> (forall x, lok L (lt :: x)) -> tt lt = T_Less -> tspec l v t d -> tt gt = T_Greater -> opt_cfws g ->
    tbox e (u ++ ltext L ++ lt :: l ++ t :: d ++ gt :: g) (mkAddr (nv e [] false L) (at_join v (text d))).

(** what may follow an element *)
Definition sep_types : list ttype := [T_Comma; T_Semicolon; T_EOF].
Definition sep (y : word) : Prop := match y with t :: _ => memb (tt t) sep_types = true | [] => False end.
Lemma sep_stop y : sep y -> stop y.
Proof. destruct y as [|t y]; [easy|]. cbn [sep stop]. intros H. apply memb_In in H. apply memb_In. unfold sep_types, stop_types in *. cbn [In] in *. tauto. Qed.
Lemma sep_bar y : sep y -> bar y.
Proof. destruct y as [|t y]; [easy|]. cbn [sep bar]. intros H. apply memb_In in H. apply memb_In. unfold sep_types, bar_types in *. cbn [In] in *. tauto. Qed.

Lemma lx_tok_ok w : Forall lx w -> Forall tok_ok w.
Proof. intros H. eapply Forall_impl; [|exact H]. intros t [K|K]; unfold tok_ok; [auto | subst t; auto]. Qed.

Lemma local_lang l v : tlocal l v -> lang (Nt R_localPart) l.
Proof.
  intros T. apply lang_nt. change (body R_localPart) with g_localPart. unfold g_localPart. cbn [alts seqs].
  destruct T as [[T _]|[T _]]; [apply lang_altl | apply lang_altr, lang_altl];
    (change l with ([] ++ l); apply lang_seq_i; [apply lang_opt_none|]; rewrite <- (app_nil_r l); apply lang_seq_i; [exact T | apply lang_opt_none]).
Qed.

Lemma gap_local_lang u l v : opt_cfws u -> tlocal l v -> lang (Nt R_localPart) (u ++ l).
Proof.
  intros U T. apply lang_nt. change (body R_localPart) with g_localPart. unfold g_localPart. cbn [alts seqs].
  destruct T as [[T _]|[T _]]; [apply lang_altl | apply lang_altr, lang_altl];
    (apply lang_seq_i; [exact U|]; rewrite <- (app_nil_r l); apply lang_seq_i; [exact T | apply lang_opt_none]).
Qed.

Lemma domain_gap_lang d g : tdomain d -> opt_cfws g -> lang (Nt R_domain) (d ++ g).
Proof.
  intros T G. apply lang_nt. change (body R_domain) with g_domain. unfold g_domain. cbn [alts seqs].
  destruct T as [[T _]|T]; [apply lang_altl | apply lang_altr, lang_altl];
    (change (d ++ g) with ([] ++ d ++ g); apply lang_seq_i; [apply lang_opt_none|]; apply lang_seq_i; [exact T | exact G]).
Qed.

Lemma ported_lang d g : tported d -> opt_cfws g -> g = [] \/ tdomain d -> lang (seqs [Nt R_domain; Opt (seqs [Tok T_Colon; Nt R_port])]) (d ++ g).
Proof.
  intros D G K. cbn [seqs]. assert (X : tdomain d -> lang (Seq (Nt R_domain) (Opt (Seq (Tok T_Colon) (Nt R_port)))) (d ++ g)).
  { intros T. rewrite <- (app_nil_r (d ++ g)). apply lang_seq_i; [now apply domain_gap_lang | apply lang_opt_none]. }
  destruct D as [D|(d0 & p & -> & D & c & q & -> & C & _ & Q)]; [now apply X|]. destruct K as [->|K]; [|now apply X].
  rewrite app_nil_r. apply lang_seq_i; [rewrite <- (app_nil_r d0); now apply domain_gap_lang; auto using no_gap|]. apply lang_opt_some.
  change (c :: q) with ([c] ++ q). apply lang_seq_i; [apply lang_cls_i; left; auto | exact Q].
Qed.

Lemma spec_lang u l v t d g : opt_cfws u -> tspec l v t d -> opt_cfws g -> g = [] \/ tdomain d -> lang (Nt R_addrSpec) (u ++ l ++ t :: d ++ g).
Proof.
  intros U [T _ A D _] G K. apply lang_nt. change (body R_addrSpec) with g_addrSpec. unfold g_addrSpec. cbn [seqs].
  rewrite app_assoc. apply lang_seq_i; [now apply (gap_local_lang u l v)|]. change (t :: d ++ g) with ([t] ++ d ++ g).
  apply lang_seq_i; [apply lang_cls_i; left; auto|]. exact (ported_lang d g D G K).
Qed.

Lemma tangle_lang z lt l v t d gt g : opt_cfws z -> tt lt = T_Less -> tspec l v t d -> tt gt = T_Greater -> opt_cfws g ->
  lang (Nt R_angleAddr) (z ++ lt :: l ++ t :: d ++ gt :: g).
Proof.
  intros Z L S H G. apply lang_nt. change (body R_angleAddr) with g_angleAddr. unfold g_angleAddr. cbn [alts seqs]. apply lang_altl.
  apply lang_seq_i; [exact Z|]. change (lt :: l ++ t :: d ++ gt :: g) with ([lt] ++ l ++ t :: d ++ gt :: g).
  apply lang_seq_i; [apply lang_cls_i; left; auto|]. replace (l ++ t :: d ++ gt :: g) with (([] ++ l ++ t :: d ++ []) ++ [gt] ++ g) by (rewrite app_nil_r; cbn [app]; now rewrite <- app_assoc).
  apply lang_seq_i; [apply lang_opt_some; apply (spec_lang [] l v t d []); auto using no_gap|].
  apply lang_seq_i; [apply lang_cls_i; left; auto | exact G].
Qed.

Lemma name_lang u L x lt : opt_cfws u -> L <> [] -> lok L (lt :: x) -> lang (Nt R_displayName) (u ++ ltext L).
Proof.
  intros U N K. apply lang_nt. change (body R_displayName) with g_displayName. unfold g_displayName. cbn [alts]. apply lang_altl.
  revert u U N K. induction L as [|[i g] L IH]; intros u U N K; [congruence|]. destruct K as (I & G & _ & _ & K). rewrite ltext_cons.
  replace (u ++ tword i ++ g ++ ltext L) with ((u ++ tword i ++ g) ++ ltext L) by (now rewrite <- !app_assoc).
  apply lang_seq_i; [now apply word_i|]. destruct L as [|j L]; [apply lang_star_nil|].
  assert (X : lang (Plus (Nt R_word)) ([] ++ ltext (j :: L))) by (apply IH; auto using no_gap; discriminate). cbn [app] in X.
  apply lang_seq in X as (a & b & -> & A & B). apply lang_star_cons; assumption.
Qed.

Lemma box_lang e x a : tbox e x a -> lang (Nt R_mailbox) x.
Proof.
  intros [u l v t d g U S G GK|z lt l v t d gt g Z L S H G|u M lt l v t d gt g U N K L S H G]; apply lang_nt; change (body R_mailbox) with g_mailbox; unfold g_mailbox; cbn [alts].
  - apply lang_altr. now apply (spec_lang u l v).
  - apply lang_altl, lang_nt. change (body R_nameAddr) with g_nameAddr. unfold g_nameAddr. cbn [seqs].
    change (z ++ lt :: l ++ t :: d ++ gt :: g) with ([] ++ z ++ lt :: l ++ t :: d ++ gt :: g). apply lang_seq_i; [apply lang_opt_none|]. now apply (tangle_lang z lt l v).
  - apply lang_altl, lang_nt. change (body R_nameAddr) with g_nameAddr. unfold g_nameAddr. cbn [seqs].
    rewrite app_assoc. apply lang_seq_i; [apply lang_opt_some; now apply (name_lang u M [] lt)|]. now apply (tangle_lang [] lt l v t d gt g); auto using no_gap.
Qed.

Lemma angle_sel e (V : word -> Prop) z lt l v t d gt g y0 f w' : opt_cfws z -> tt lt = T_Less -> tspec l v t d -> tt gt = T_Greater -> opt_cfws g ->
  (forall w, V w -> sep w) -> V w' -> sep y0 -> Forall lx (z ++ lt :: l ++ t :: d ++ gt :: g ++ y0) ->
  sel (Nt R_angleAddr) V (z ++ lt :: l ++ t :: d ++ gt :: g ++ y0) f w' ->
  w' = y0 /\ exists ch, f = [Node R_angleAddr ch] /\ feeds e (NAngleAddr []) ch = NAngleAddr (at_join v (text d)).
Proof.
  intros Z L [T Ll A D Ld] H G HV Vw S0 F S. inversion S as [| |? ? ? ch ? Sw| | | | |]; subst.
  destruct (sel_sound _ _ _ _ _ Sw) as [Dr Ey].
  assert (Ok : toks_ok ch). { unfold toks_ok. rewrite Ey in F. apply Forall_app in F as [F _]. now apply lx_tok_ok. }
  destruct (den_angle e ch (chosen_i _ _ _ _ _ Sw Vw) Ok) as (a & Fd & R).
  destruct (angle_in (reader e) (yields ch) a z lt l v t d gt g w' y0) as [-> ->]; auto using sep_stop.
  split; [reflexivity|]. exists ch. auto.
Qed.

Lemma dotAtom_dnt l : lang (Nt R_dotAtom) l -> Forall dnt l.
Proof. intros H. apply dotAtom_adott in H. eapply Forall_impl; [|exact H]. intros t [T|T]; [left; exact T | right; right; exact T]. Qed.

Lemma pair_at l t d : no_pair l -> no_pair d -> tt t = T_At -> no_pair (l ++ t :: d).
Proof.
  intros L D T p x y q E Ex Ey. destruct (app_cases _ _ _ _ E) as [(z & -> & K)|(z & -> & K)].
  - destruct z as [|z1 [|z2 z]]; cbn [app] in K.
    + injection K as -> _. rewrite Ex in T. discriminate.
    + injection K as <- <- _. rewrite Ey in T. discriminate.
    + injection K as <- <- _. exact (L p x y z eq_refl Ex Ey).
  - destruct z as [|z1 z]; cbn [app] in K.
    + injection K as -> _. rewrite Ex in T. discriminate.
    + injection K as <- K. exact (D z x y q K Ex Ey).
Qed.

Lemma spec_rest u l v t d g y : opt_cfws u -> tspec l v t d -> opt_cfws g -> g = [] \/ tdomain d -> sep y -> rest (u ++ l ++ t :: d ++ g ++ y).
Proof.
  intros U [T Ll A D Ld] G GK S.
  assert (Td : dnt t) by (right; left; auto).
  assert (X : exists s g2 y2, t :: d ++ g ++ y = (t :: s) ++ g2 ++ y2 /\ Forall dnt s /\ no_pair s /\ opt_cfws g2 /\ bar y2).
  { assert (Y : exists d0 y2, d ++ g ++ y = d0 ++ y2 /\ tdomain d0 /\ exists g3 y3, y2 = g3 ++ y3 /\ opt_cfws g3 /\ bar y3).
    { assert (Z : tdomain d -> exists d0 y2, d ++ g ++ y = d0 ++ y2 /\ tdomain d0 /\ exists g3 y3, y2 = g3 ++ y3 /\ opt_cfws g3 /\ bar y3).
      { intros Dd. exists d, (g ++ y). split; [reflexivity|]. split; [exact Dd|]. exists g, y. auto using sep_bar. }
      destruct D as [D|(d0 & p & -> & D & c & q & -> & C & _ & _)]; [now apply Z|]. destruct GK as [->|GK]; [|now apply Z].
      exists d0, ((c :: q) ++ y). split; [now rewrite <- app_assoc|]. split; [exact D|]. exists [], ((c :: q) ++ y). split; [reflexivity|]. split; [exact no_gap|].
      cbn [app bar]. now rewrite C. }
    clear D GK Ld. destruct Y as (d0 & y2 & -> & D & g3 & y3 & -> & G3 & B3). clear d g G S y. rename d0 into d.
    destruct D as [[D P]|D].
    - exists d, g3, y3. split; [reflexivity|]. auto using dotAtom_dnt.
    - exists [], [], (d ++ g3 ++ y3). split; [reflexivity|]. split; [constructor|]. split; [intros [|] ? ? ? K; discriminate K|]. split; [exact no_gap|].
      destruct (literal_head d D) as (b & d' & -> & Hb). cbn [app bar]. now rewrite Hb. }
  destruct X as (s & g2 & y2 & -> & As & Ps & G2 & B2).
  destruct T as [(T & _ & P)|[T Q]].
  - rewrite (app_assoc l). apply (rs_run u (l ++ t :: s) g2 y2); auto.
    + now destruct l.
    + apply Forall_app. split; [now apply dotAtom_dnt | now constructor].
    + now apply pair_at.
  - apply (rs_quoted u l v (t :: s) g2 y2); auto; [discriminate | ].
    apply (pair_at [] t s); auto. intros [|] ? ? ? K; discriminate K.
Qed.

Lemma no_display_angle z lt x V : opt_cfws z -> tt lt = T_Less -> Forall lx (z ++ lt :: x) -> ~ viable (Nt R_displayName) V (z ++ lt :: x).
Proof.
  intros Z L F (a & b & E & H & _). assert (X : exists u t r, a = u ++ t :: r /\ opt_cfws u /\ memb (tt t) word_start = true).
  { apply lang_nt in H. change (body R_displayName) with g_displayName in H. unfold g_displayName in H. cbn [alts] in H.
    apply lang_alt in H as [H|H]; [|cbn [seqs] in H]; apply lang_seq in H as (c & d & -> & C & _); destruct (word_shape c C) as (u & t & r & -> & U & T);
      exists u, t, (r ++ d); (split; [now rewrite <- app_assoc|]; auto). }
  destruct X as (u & t & r & -> & U & T). rewrite <- app_assoc in E. cbn [app] in E.
  destruct (gap_whole z (lt :: x) u (t :: r ++ b)) as [_ K]; auto; [cbn [solid]; now rewrite L | cbn [solid]; now apply word_start_solid|].
  injection K as -> _. rewrite L in T. discriminate.
Qed.

(** An element is read as what it stands for, up to the next separator. *)
Lemma box_sel e (V : word -> Prop) x a y0 f w' : tbox e x a -> (forall w, V w -> sep w) -> V y0 -> Forall lx (x ++ y0) ->
  sel (Nt R_address) V (x ++ y0) f w' ->
  w' = y0 /\ forall s, exists s', feeds e (NAddressList s) f = NAddressList s' /\ elems s' = elems s ++ [a].
Proof.
  intros B HV Vy F S.
  assert (Vm : viable (Nt R_mailbox) V (x ++ y0)) by (exists x, y0; split; [reflexivity|]; split; [now apply (box_lang e x a) | exact Vy]).
  inversion S as [| |? ? ? ch ? Sw| | | | |]; subst. change (body R_address) with g_address in Sw. unfold g_address in Sw. cbn [alts] in Sw.
  inversion Sw as [| | | |? ? ? ? ? ? HVi S1|? ? ? ? ? ? HVi S1| |]; subst; clear Sw; [|contradiction].
  assert (Vw : V w') by (apply (sel_keeps _ _ _ _ _ S1 HVi)).
  inversion S1 as [| |? ? ? cm ? Sm| | | | |]; subst.
  assert (X : w' = y0 /\ feeds e (NMailbox [] []) cm = NMailbox (a_name a) (a_address a)).
  { change (body R_mailbox) with g_mailbox in Sm. unfold g_mailbox in Sm. cbn [alts] in Sm.
    destruct B as [u l v t d g U T G GK|z lt l v t d gt g Z L T H G|u M lt l v t d gt g U N K L T H G].
    - assert (NV : ~ viable (Nt R_nameAddr) V ((u ++ l ++ t :: d ++ g) ++ y0)).
      { apply (rest_no_angle e); [|exact F]. assoc. apply (spec_rest u l v); auto. }
      inversion Sm as [| | | |? ? ? ? ? ? Hn S2|? ? ? ? ? ? Hn S2| |]; subst; [contradiction|].
      inversion S2 as [| |? ? ? cs ? Ss| | | | |]; subst. destruct (sel_sound _ _ _ _ _ Ss) as [Dr Ey].
      assert (Ok : toks_ok cs). { unfold toks_ok. rewrite Ey in F. apply Forall_app in F as [F _]. now apply lx_tok_ok. }
      destruct (den_addrspec e cs (chosen_i _ _ _ _ _ Ss Vw) Ok) as (vl & vd & Fd & R). destruct T as [T Ll A D Ld].
      destruct (addrspec_in2 (reader e) (yields cs) (at_join vl vd) u l v t d g w' y0) as [E2 ->]; auto using sep_stop.
      { rewrite <- Ey. assoc. reflexivity. }
      { revert F. assoc. auto. }
      split; [reflexivity|]. rewrite (feeds_node e _ R_addrSpec cs (NAddrSpec [] []) None) by reflexivity. rewrite Fd. cbn [give a_name a_address]. now rewrite E2.
    - assert (Vn : viable (Nt R_nameAddr) V ((z ++ lt :: l ++ t :: d ++ gt :: g) ++ y0)).
      { exists (z ++ lt :: l ++ t :: d ++ gt :: g), y0. split; [reflexivity|]. split; [|exact Vy]. apply lang_nt. change (body R_nameAddr) with g_nameAddr. unfold g_nameAddr. cbn [seqs].
        change (z ++ lt :: l ++ t :: d ++ gt :: g) with ([] ++ z ++ lt :: l ++ t :: d ++ gt :: g). apply lang_seq_i; [apply lang_opt_none|]. now apply (tangle_lang z lt l v). }
      inversion Sm as [| | | |? ? ? ? ? ? Hn S2|? ? ? ? ? ? Hn S2| |]; subst; [|contradiction].
      inversion S2 as [| |? ? ? cs ? Ss| | | | |]; subst. change (body R_nameAddr) with g_nameAddr in Ss. unfold g_nameAddr in Ss. cbn [seqs] in Ss.
      inversion Ss as [| | |? ? ? ? f1 w1 f2 ? T1 T2| | | |]; subst.
      assert (X : f1 = [] /\ w1 = (z ++ lt :: l ++ t :: d ++ gt :: g) ++ y0).
      { inversion T1 as [| | | |? ? ? ? ? ? Hd S3|? ? ? ? ? ? Hd S3| |]; subst.
        - exfalso. revert Hd. assoc. apply no_display_angle; auto. revert F. assoc. auto.
        - inversion S3; subst. auto. }
      destruct X as [-> ->]. revert T2 F. assoc. intros T2 F. destruct (angle_sel e V z lt l v t d gt g y0 f2 w') as [-> (ca & -> & Fa)]; auto.
      split; [reflexivity|]. rewrite (feeds_node e _ R_nameAddr _ (NNameAddr [] []) None) by reflexivity. cbn [app].
      rewrite (feeds_node e _ R_angleAddr ca (NAngleAddr []) None) by reflexivity. rewrite Fa. reflexivity.
    - set (y := lt :: l ++ t :: d ++ gt :: g ++ y0) in *.
      assert (Ey : (u ++ ltext M ++ lt :: l ++ t :: d ++ gt :: g) ++ y0 = u ++ ltext M ++ y) by (unfold y; assoc; reflexivity).
      assert (Gy : good (viable (Nt R_angleAddr) V) y).
      { intros z Z. exists (z ++ lt :: l ++ t :: d ++ gt :: g), y0. split; [unfold y; assoc; reflexivity|]. split; [|exact Vy]. now apply (tangle_lang z lt l v). }
      assert (Vd : viable (Nt R_displayName) (viable (Nt R_angleAddr) V) (u ++ ltext M ++ y)).
      { exists (u ++ ltext M), y. split; [now rewrite <- app_assoc|]. split; [now apply (name_lang u M [] lt) | exact (Gy [] no_gap)]. }
      rewrite Ey in *.
      assert (Vn : viable (Nt R_nameAddr) V (u ++ ltext M ++ y)).
      { destruct Vd as (a & b & E & La & b1 & b2 & -> & Lb & Vb). exists (a ++ b1), b2. split; [rewrite <- app_assoc; exact E|]. split; [|exact Vb].
        apply lang_nt. change (body R_nameAddr) with g_nameAddr. unfold g_nameAddr. cbn [seqs]. apply lang_seq_i; [now apply lang_opt_some | exact Lb]. }
      inversion Sm as [| | | |? ? ? ? ? ? Hn S2|? ? ? ? ? ? Hn S2| |]; subst; [|contradiction].
      inversion S2 as [| |? ? ? cs ? Ss| | | | |]; subst. change (body R_nameAddr) with g_nameAddr in Ss. unfold g_nameAddr in Ss. cbn [seqs] in Ss.
      inversion Ss as [| | |? ? ? ? f1 w1 f2 ? T1 T2| | | |]; subst.
      inversion T1 as [| | | |? ? ? ? ? ? Hd S3|? ? ? ? ? ? Hd S3| |]; subst; [|contradiction].
      destruct (display_sel e _ y M u f1 w1 Gy) as (z & -> & Z & cd & -> & Fd); auto.
      { unfold y. cbn [solid]. now rewrite L. }
      { unfold y. cbn [no_start]. now rewrite L. }
      { unfold y. apply K. }
      assert (Fz : Forall lx (z ++ y)) by (destruct (sel_sound _ _ _ _ _ S3) as [_ E3]; rewrite E3 in F; apply Forall_app in F as [_ F]; exact F).
      destruct (angle_sel e V z lt l v t d gt g y0 f2 w') as [-> (ca & -> & Fa)]; auto.
      split; [reflexivity|]. rewrite (feeds_node e _ R_nameAddr _ (NNameAddr [] []) None) by reflexivity. rewrite feeds_app.
      rewrite (feeds_node e _ R_displayName cd (NDisplayName [] false) None) by reflexivity. rewrite Fd.
      rewrite (feeds_node e _ R_angleAddr ca (NAngleAddr []) None) by reflexivity. rewrite Fa. reflexivity. }
  destruct X as [-> X]. split; [reflexivity|]. intros s.
  rewrite (feeds_node e _ R_address _ (NAddress None) None) by reflexivity.
  rewrite (feeds_node e _ R_mailbox cm (NMailbox [] []) None) by reflexivity. rewrite X. cbn [give].
  eexists. split; [reflexivity|]. rewrite elems_append. destruct a. reflexivity.
Qed.

(** ** Lists *)
Inductive ttail (e : wenv) : word -> list addr -> Prop :=
| tt_nil : ttail e [] []
| tt_cons : forall k x a t l, In (tt k) [T_Comma; T_Semicolon] -> tbox e x a -> ttail e t l -> ttail e (k :: x ++ t) (a :: l).
Definition tlist (e : wenv) (w : word) (l : list addr) : Prop := exists x a t l', w = x ++ t /\ tbox e x a /\ ttail e t l' /\ l = a :: l'.

Definition g_more : gexp := seqs [Cls [T_Comma; T_Semicolon]; Nt R_address].
Definition VE : word -> Prop := viable (Tok T_EOF) (eq []).

Lemma box_address e x a : tbox e x a -> lang (Nt R_address) x.
Proof. intros B. apply lang_nt. change (body R_address) with g_address. unfold g_address. cbn [alts]. apply lang_altl. now apply (box_lang e x a). Qed.

Lemma tail_lang e t l : ttail e t l -> lang (Star g_more) t.
Proof.
  induction 1 as [|k x a t l K B T IH]; [apply lang_star_nil|]. change (k :: x ++ t) with (([k] ++ x) ++ t). apply lang_star_cons; [|exact IH].
  unfold g_more. cbn [seqs]. apply lang_seq_i; [now apply lang_cls_i | now apply (box_address e x a)].
Qed.

Lemma ve_eof : VE [eof_tok].
Proof. exists [eof_tok], []. split; [reflexivity|]. split; [apply lang_cls_i; left; reflexivity | reflexivity]. Qed.

Lemma ve_inv w : VE w -> exists k, w = [k] /\ tt k = T_EOF.
Proof. intros (u & v & -> & L & <-). apply lang_cls in L as (k & -> & [K|[]]). exists k. auto. Qed.

Lemma more_sep w : viable (Star g_more) VE w -> sep w.
Proof.
  intros (u & v & -> & L & V). apply lang_star in L as [->|(a & b & -> & A & _)].
  - destruct (ve_inv v V) as (k & -> & K). cbn [app sep]. now rewrite K.
  - unfold g_more in A. cbn [seqs] in A. apply lang_seq in A as (c & d & -> & C & _). apply lang_cls in C as (k & -> & [K|[K|[]]]); cbn [app sep]; now rewrite <- K.
Qed.

Lemma more_sep1 w : viable (Seq (Star g_more) (Tok T_EOF)) (eq []) w -> sep w.
Proof.
  intros (u & v & -> & L & V). apply more_sep. apply lang_seq in L as (a & b & -> & A & B). exists a, (b ++ v). split; [now rewrite <- app_assoc|].
  split; [exact A|]. exists b, v. auto.
Qed.

Lemma tail_sel e t l : ttail e t l -> forall f w', Forall lx (t ++ [eof_tok]) -> sel (Star g_more) VE (t ++ [eof_tok]) f w' ->
  w' = [eof_tok] /\ forall s, exists s', feeds e (NAddressList s) f = NAddressList s' /\ elems s' = elems s ++ l.
Proof.
  induction 1 as [|k x a t l K B T IH]; intros f w' F S.
  - inversion S as [| | | | | |? ? ? ? ? ? ? Hv S1 S2|? ? ? Hv]; subst.
    + exfalso. destruct Hv as (u & v & E & L & _). unfold g_more in L. cbn [seqs] in L. apply lang_seq in L as (c & d & -> & C & _).
      apply lang_cls in C as (k & -> & K). cbn [app] in E. injection E as <- _. cbn in K. destruct K as [K|[K|[]]]; discriminate K.
    + split; [reflexivity|]. intros s. exists s. split; [reflexivity|]. now rewrite app_nil_r.
  - inversion S as [| | | | | |? ? ? f1 w1 f2 ? Hv S1 S2|? ? ? Hv]; subst.
    + unfold g_more in S1 at 1. cbn [seqs] in S1. inversion S1 as [| | |? ? ? ? g1 v1 g2 ? T1 T2| | | |]; subst.
      inversion T1 as [? ? ? ? Hk| | | | | | |]; subst. cbn [app] in F. rewrite <- app_assoc in F, T2. apply Forall_inv_tail in F.
      destruct (box_sel e (viable (Star g_more) VE) x a (t ++ [eof_tok]) g2 w1 B more_sep) as [-> X]; auto.
      { exists t, [eof_tok]. split; [reflexivity|]. split; [now apply (tail_lang e t l) | exact ve_eof]. }
      apply Forall_app in F as [_ F]. destruct (IH f2 w' F S2) as [-> Y]. split; [reflexivity|]. intros s.
      rewrite !feeds_app. change (feeds e (NAddressList s) [Leaf k]) with (NAddressList s). destruct (X s) as (s1 & -> & E1). destruct (Y s1) as (s2 & -> & E2).
      exists s2. split; [reflexivity|]. rewrite E2, E1, <- app_assoc. reflexivity.
    + exfalso. apply Hv. exists ([k] ++ x), (t ++ [eof_tok]). split; [cbn [app]; now rewrite <- app_assoc|]. split.
      * unfold g_more. cbn [seqs]. apply lang_seq_i; [now apply lang_cls_i | now apply (box_address e x a)].
      * exists t, [eof_tok]. split; [reflexivity|]. split; [now apply (tail_lang e t l) | exact ve_eof].
Qed.

Lemma list_lang e w l : tlist e w l -> lang (Nt R_addressList) (w ++ [eof_tok]).
Proof.
  intros (x & a & t & l' & -> & B & T & ->). apply lang_nt. change (body R_addressList) with g_addressList. unfold g_addressList. cbn [alts seqs]. apply lang_altl.
  rewrite <- app_assoc. apply lang_seq_i; [now apply (box_address e x a)|]. apply lang_seq_i; [now apply (tail_lang e t l') | apply lang_cls_i; left; reflexivity].
Qed.

(** The whole list. *)
Theorem list_sel e w l ch : tlist e w l -> Forall lx (w ++ [eof_tok]) -> selected R_addressList (w ++ [eof_tok]) (Node R_addressList ch) ->
  elems (list_value e ch) = l.
Proof.
  intros (x & a & t & l' & -> & B & T & ->) F S. unfold selected in S. rewrite <- app_assoc in F, S.
  inversion S as [| |? ? ? ? ? Sw| | | | |]; subst. change (body R_addressList) with g_addressList in Sw. unfold g_addressList in Sw. cbn [alts seqs] in Sw.
  fold (seqs [Cls [T_Comma; T_Semicolon]; Nt R_address]) in Sw. fold g_more in Sw.
  assert (Vy : viable (Seq (Star g_more) (Tok T_EOF)) (eq []) (t ++ [eof_tok])).
  { exists (t ++ [eof_tok]), []. split; [now rewrite app_nil_r|]. split; [|reflexivity]. apply lang_seq_i; [now apply (tail_lang e t l') | apply lang_cls_i; left; reflexivity]. }
  inversion Sw as [| | | |? ? ? ? ? ? Hv S1|? ? ? ? ? ? Hv S1| |]; subst; clear Sw.
  - inversion S1 as [| | |? ? ? ? f1 w1 f2 ? T1 T2| | | |]; subst.
    destruct (box_sel e (viable (Seq (Star g_more) (Tok T_EOF)) (eq [])) x a (t ++ [eof_tok]) f1 w1 B more_sep1 Vy F T1) as [-> X].
    inversion T2 as [| | |? ? ? ? g1 v1 g2 ? U1 U2| | | |]; subst. apply Forall_app in F as [_ F].
    destruct (tail_sel e t l' T g1 v1 F U1) as [-> Y].
    inversion U2; subst. unfold list_value. rewrite !feeds_app. destruct (X None) as (s1 & -> & E1). destruct (Y s1) as (s2 & -> & E2).
    change (feeds e (NAddressList s2) [Leaf eof_tok]) with (NAddressList s2). cbv iota beta. rewrite E2, E1. reflexivity.
  - exfalso. apply Hv. exists (x ++ t ++ [eof_tok]), []. split; [now rewrite app_nil_r|]. split; [|reflexivity].
    apply lang_seq_i; [now apply (box_address e x a)|]. apply lang_seq_i; [now apply (tail_lang e t l') | apply lang_cls_i; left; reflexivity].
Qed.
