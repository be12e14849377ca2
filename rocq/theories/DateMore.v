(** C41 and C46. *)
From Coq Require Import String List NArith ZArith Bool Arith Lia.
From Verif Require Import Lexer Grammar Utf8 Utf8Facts Strs Mime GoTime Parser Walker Api Spec ParserFacts
  WalkerFacts Static Total Cfws DateSpec LexFacts LangFacts Dates Calendar DateText DateAccept First PropDate.
Import ListNotations.

(** ** Tokens of a text in pieces *)
Definition pre (e : env) (s : gostring) : word := flat_map (lex1 (bad_rune e)) (decode s).

Lemma tokens_pre e s : tokens e s = pre e s ++ [eof_tok].
Proof. reflexivity. Qed.

Lemma lex1_ascii m c : ascii c -> lex1 m c = [tok_of c].
Proof.
  intros H. unfold lex1, tok_of. destruct (lex_bmp c) as [t ->]; [|reflexivity].
  unfold bmp. apply N.leb_le. unfold ascii in H. lia.
Qed.

Lemma pre_split e a c b : ascii c -> pre e (a ++ c :: b) = pre e a ++ tok_of c :: pre e b.
Proof.
  intros H. unfold pre. rewrite decode_split by assumption. rewrite flat_map_app. cbn [flat_map].
  now rewrite lex1_ascii.
Qed.

Lemma pre_ascii e a b : Forall ascii a -> pre e (a ++ b) = toks a ++ pre e b.
Proof.
  induction 1 as [|c a Hc Ha IH]; [reflexivity|]. change ((c :: a) ++ b) with ([] ++ c :: (a ++ b)).
  rewrite pre_split by assumption. change (pre e []) with (@nil tok). cbn [app toks map]. f_equal. exact IH.
Qed.

Lemma pre_mid e a n b : Forall ascii n -> n <> [] -> pre e (a ++ n ++ b) = pre e a ++ toks n ++ pre e b.
Proof.
  intros H N. destruct H as [|c n Hc H]; [congruence|]. cbn [app]. rewrite pre_split by assumption.
  rewrite pre_ascii by assumption. reflexivity.
Qed.

Lemma pre_valid e s : Forall (fun t => tt t <> T_Invalid) (pre e s) ->
  pre e s = map tok_of (filter bmp (decode s)).
Proof. apply lex_body. Qed.

(** ** Where the first visible token is *)
Lemma anchor P c x u d y : P ++ c :: x = u ++ d :: y ->
  Forall lexed P -> Forall lexed u -> lexed c -> lexed d ->
  (forall x, strip 0 (map tr P ++ x) = strip 0 x) -> skips u ->
  tkind (tt c) = KOther -> tkind (tt d) = KOther -> P = u /\ c = d /\ x = y.
Proof.
  intros E LP LU LC LD BP SU KC KD.
  apply app_eq_app in E as [l [[E1 E2]|[E1 E2]]].
  - destruct l as [|t l].
    + rewrite app_nil_r in E1. cbn in E2. injection E2 as -> ->. auto.
    + exfalso. cbn [app] in E2. injection E2 as <- _.
      specialize (BP []). rewrite app_nil_r, <- tscan_strip in BP by assumption.
      rewrite E1, SU in BP. cbn [tscan] in BP. rewrite KD in BP. discriminate.
  - destruct l as [|t l].
    + rewrite app_nil_r in E1. cbn in E2. injection E2 as -> ->. auto.
    + exfalso. cbn [app] in E2. injection E2 as <- _.
      pose proof (SU 0 []) as SU0. rewrite app_nil_r in SU0.
      apply (f_equal (map tr)) in SU0. rewrite tscan_strip in SU0 by assumption.
      rewrite E1, map_app, BP in SU0. cbn [map] in SU0.
      change (tr c :: map tr l) with (map tr (c :: l)) in SU0.
      rewrite <- tscan_strip in SU0.
      * cbn [tscan] in SU0. rewrite KC in SU0. discriminate.
      * rewrite E1 in LU. now apply Forall_app in LU.
Qed.

Lemma lang_opt_cfws_skips u : lang (Opt (Nt R_cfws)) u -> skips u.
Proof. intros [f [D <-]]. now apply skips_opt_cfws. Qed.

Lemma lang_opt_fws_skips u : lang (Opt (Nt R_fws)) u -> skips u.
Proof. intros [f [D <-]]. now apply skips_opt_fws. Qed.

Lemma single_tok ts w : lang (Cls ts) w -> exists t, w = [t] /\ In (tt t) ts.
Proof. intros H. apply lang_cls in H as [t [-> Ht]]. eauto. Qed.

(** a day name is three letters *)
Lemma dayName_word w : lang (Nt R_dayName) w ->
  exists a b c, w = [a; b; c] /\ tkind (tt a) = KOther /\ tt a <> T_Digit.
Proof.
  intros [f [D <-]]. dinv D. dinv D; cbn [yields flat_map yield app];
    match goal with H : In (tt ?t) _ |- context [?t :: _] => idtac | _ => idtac end;
    eexists; eexists; eexists; (split; [reflexivity|]);
    match goal with |- tkind (tt ?a) = _ /\ _ =>
      match goal with H : In (tt a) [?T] |- _ => destruct H as [<-|[]]; split; [reflexivity | discriminate] end end.
Qed.

Lemma dayOfweek_word w : lang (Nt R_dayOfweek) w ->
  exists u n v, w = u ++ n ++ v /\ skips u /\ skips v /\ lang (Nt R_dayName) n /\
    (forall n', lang (Nt R_dayName) n' -> lang (Nt R_dayOfweek) (u ++ n' ++ v)).
Proof.
  intros H. apply lang_nt in H. change (body R_dayOfweek) with g_dayOfweek in H. unfold g_dayOfweek in H.
  cbn [alts seqs] in H. apply lang_alt in H as [H|H].
  - apply lang_seq in H as [u [n [-> [H1 H2]]]]. exists u, n, []. rewrite app_nil_r.
    split; [reflexivity|]. split; [now apply lang_opt_fws_skips|]. split; [apply skips_nil|]. split; [assumption|].
    intros n' Hn. rewrite app_nil_r. apply lang_nt_i, lang_altl. now apply lang_seq_i.
  - apply lang_seq in H as [u [x [-> [H1 H]]]]. apply lang_seq in H as [n [v [-> [H2 H3]]]].
    exists u, n, v. split; [reflexivity|]. split; [now apply lang_opt_cfws_skips|]. split; [now apply lang_opt_cfws_skips|].
    split; [assumption|]. intros n' Hn. apply lang_nt_i, lang_altr. apply lang_seq_i; [assumption|]. now apply lang_seq_i.
Qed.

Lemma day_word w : lang (Nt R_day) w -> exists u d v, w = u ++ d :: v /\ skips u /\ tt d = T_Digit.
Proof.
  intros H. apply lang_nt in H. change (body R_day) with g_day in H. unfold g_day in H.
  cbn [alts seqs] in H. apply lang_alt in H as [H|H];
    apply lang_seq in H as [u [x [-> [H1 H]]]]; apply lang_seq in H as [n [v [-> [H2 H3]]]];
    apply single_tok in H2 as [t [-> Ht]]; destruct Ht as [Ht|[]]; exists u, t, v;
    (split; [reflexivity|]); split; auto using lang_opt_fws_skips, lang_opt_cfws_skips.
Qed.

Definition g_rest : gexp :=
  seqs [Nt R_day; Nt R_month; Nt R_year; Nt R_hour;
    Tok T_Colon; Nt R_minute; Opt (seqs [Tok T_Colon; Nt R_second]); Opt (Nt R_zone);
    Opt (Nt R_cfws); Tok T_EOF].

Lemma dateTime_word w : lang (Nt R_dateTime) w <->
  lang g_rest w \/ exists a k b, w = a ++ k :: b /\ lang (Nt R_dayOfweek) a /\ tt k = T_Comma /\ lang g_rest b.
Proof.
  rewrite lang_nt. change (body R_dateTime) with (Seq (Opt (Seq (Nt R_dayOfweek) (Tok T_Comma))) g_rest).
  rewrite lang_seq. split.
  - intros [u [v [-> [H1 H2]]]]. apply lang_opt_inv in H1 as [H1|H1]; [right|left; now subst].
    apply lang_seq in H1 as [a [k [-> [Ha Hk]]]]. apply single_tok in Hk as [t [-> Ht]].
    exists a, t, v. rewrite <- app_assoc. destruct Ht as [Ht|[]]. auto.
  - intros [H|[a [k [b [-> [Ha [Hk Hb]]]]]]].
    + exists [], w. split; [reflexivity|]. split; [apply lang_opt_none | assumption].
    + exists (a ++ [k]), b. rewrite <- app_assoc. split; [reflexivity|]. split; [|assumption].
      apply lang_opt_some, lang_seq_i; [assumption|]. apply lang_cls_i. left. auto.
Qed.

Lemma rest_word w : lang g_rest w -> exists u d v, w = u ++ d :: v /\ skips u /\ tt d = T_Digit.
Proof.
  intros H. unfold g_rest in H. cbn [seqs] in H. apply lang_seq in H as [x [y [-> [H _]]]].
  apply day_word in H as [u [d [v [-> [H1 H2]]]]]. exists u, d, (v ++ y). rewrite <- app_assoc. auto.
Qed.

(** ** Locating the day name *)
Lemma lexed_pre e s : Forall (fun t => tt t <> T_Invalid) (pre e s) -> Forall lexed (pre e s).
Proof. intros H. rewrite pre_valid by assumption. apply toks_lexed. Qed.

Lemma lexed_tok_of c : ascii c -> lexed (tok_of c).
Proof. intros H. apply tok_of_lexed. unfold bmp. apply N.leb_le. unfold ascii in H. lia. Qed.

Lemma day_name_letters n : day_name n -> Forall letter n.
Proof. intros H. eapply lower_letters; [exact H | apply day_names_letters]. Qed.

Lemma letters_ascii n : Forall letter n -> Forall ascii n.
Proof. intros H. eapply Forall_impl; [|exact H]. intros c Hc. now apply letter_ascii. Qed.

Lemma letter_kind c : letter c -> tkind (tt (tok_of c)) = KOther /\ tt (tok_of c) <> T_Digit.
Proof.
  intros H. pose proof (letter_ascii c H) as HA.
  unfold letter in H. rewrite tok_of_letter by assumption. split.
  - assert (E : exists k, (k < 26)%nat /\ lower_byte c = N.of_nat (97 + k)).
    { exists (N.to_nat (lower_byte c) - 97)%nat. lia. }
    destruct E as [k [Hk ->]]. clear - Hk. do 26 (destruct k as [|k]; [reflexivity|]). lia.
  - unfold T_Digit. lia.
Qed.

Lemma day_name_tokens e p n q rest : day_name n ->
  pre e (p ++ n ++ q ++ bs "," ++ rest) = pre e p ++ toks n ++ pre e q ++ tok_of 44%N :: pre e rest.
Proof.
  intros H. rewrite pre_mid.
  - f_equal. f_equal. cbn [bs list_ascii_of_string map app]. apply pre_split. reflexivity.
  - now apply letters_ascii, day_name_letters.
  - now apply dow_nonempty.
Qed.

Lemma skips_app_blank p : (forall x, strip 0 (p ++ x) = strip 0 x) -> forall x, strip 0 (map tr (map tok_of p) ++ x) = strip 0 x.
Proof. intros H x. rewrite map_tr_tok_of. apply H. Qed.

(** The accepted input [p n q , rest]: the parse splits exactly there. *)
Lemma day_name_split e p n q rest : blank p -> blank q -> day_name n ->
  lang (Nt R_dateTime) (tokens e (p ++ n ++ q ++ bs "," ++ rest)) ->
  lang g_rest (tokens e rest) /\
  (forall n', lang (Nt R_dayName) n' -> lang (Nt R_dayOfweek) (pre e p ++ n' ++ pre e q)).
Proof.
  intros BP BQ HN HL. rewrite tokens_pre, day_name_tokens in HL by assumption.
  pose proof (lang_no_invalid _ _ HL) as HV. rewrite <- !app_assoc in HL, HV. cbn [app] in HL, HV.
  apply Forall_app in HV as [VP HV]. apply Forall_app in HV as [VN HV].
  apply Forall_app in HV as [VQ HV]. cbn [app] in HV. inversion HV as [|? ? VC VR]; subst. apply Forall_app in VR as [VR _].
  pose proof (lexed_pre _ _ VP) as LP. pose proof (lexed_pre _ _ VQ) as LQ. pose proof (lexed_pre _ _ VR) as LR.
  pose proof (day_name_letters _ HN) as HLet. pose proof (letters_ascii _ HLet) as HAsc.
  assert (LN : Forall lexed (toks n)).
  { clear - HAsc. induction HAsc; [constructor|]. cbn. constructor; [now apply lexed_tok_of | assumption]. }
  assert (Hlen : length n = 3%nat) by (apply dow_len in HN; exact HN).
  destruct n as [|c1 [|c2 [|c3 [|? ?]]]]; try discriminate. cbn [toks map] in *.
  inversion HLet as [|? ? L1 _]; subst. destruct (letter_kind c1 L1) as [K1 N1].
  assert (LC1 : lexed (tok_of c1)) by (apply lexed_tok_of; now inversion HAsc).
  assert (BP' : forall x, strip 0 (map tr (pre e p) ++ x) = strip 0 x).
  { intros x. rewrite pre_valid, map_tr_tok_of by assumption. apply BP. }
  assert (BQ' : forall x, strip 0 (map tr (pre e q) ++ x) = strip 0 x).
  { intros x. rewrite pre_valid, map_tr_tok_of by assumption. apply BQ. }
  set (W := pre e p ++ _) in HL.
  assert (LW : exists W0, W = W0 ++ [eof_tok] /\ Forall lexed W0).
  { unfold W. exists (pre e p ++ [tok_of c1; tok_of c2; tok_of c3] ++ pre e q ++ tok_of 44%N :: pre e rest).
    split; [rewrite <- !app_assoc; reflexivity|].
    apply Forall_app; split; [assumption|]. apply Forall_app; split; [assumption|].
    apply Forall_app; split; [assumption|]. constructor; [now apply lexed_tok_of | assumption]. }
  assert (LX : forall u d y, W = u ++ d :: y -> tkind (tt d) = KOther -> tt d <> T_EOF -> Forall lexed u /\ lexed d).
  { destruct LW as [W0 [EW LW0]]. intros u d y E Kd Nd. rewrite EW in E.
    destruct y as [|y0 y _] using rev_ind.
    - apply app_inj_tail in E as [_ <-]. exfalso. now apply Nd.
    - assert (E' : W0 ++ [eof_tok] = (u ++ d :: y) ++ [y0]) by (now rewrite <- app_assoc).
      apply app_inj_tail in E' as [-> _]. apply Forall_app in LW0 as [A B0]. split; [assumption|]. now inversion B0. }
  apply dateTime_word in HL as [HL|[a [k [b [E [Ha [Hk Hb]]]]]]].
  - exfalso. apply rest_word in HL as [u [d [v [E [SU HD]]]]].
    assert (KD : tkind (tt d) = KOther) by (rewrite HD; reflexivity).
    destruct (LX _ _ _ E KD) as [LU LD]; [rewrite HD; discriminate|].
    unfold W in E. eapply anchor in E as [_ [E _]]; eauto. apply N1. now rewrite E.
  - apply dayOfweek_word in Ha as [u [nm [v [-> [SU [SV [HNm HRe]]]]]]].
    apply dayName_word in HNm as [x1 [x2 [x3 [-> [KX NX]]]]].
    rewrite <- !app_assoc in E. cbn [app] in E.
    assert (NE : tt x1 <> T_EOF).
    { (* EOF is the last token only *)
      intros E0. destruct LW as [W0 [EW LW0]]. rewrite EW in E.
      assert (HI : In x1 W0).
      { assert (HE : exists z0 z1, x2 :: x3 :: v ++ k :: b = z0 ++ [z1]).
        { destruct (exists_last (l := x2 :: x3 :: v ++ k :: b)) as [z0 [z1 Ez]]; [discriminate | eauto]. }
        destruct HE as [z0 [z1 Ez]]. rewrite Ez in E.
        assert (E' : W0 ++ [eof_tok] = (u ++ x1 :: z0) ++ [z1]) by (now rewrite <- app_assoc).
        apply app_inj_tail in E' as [-> _]. apply in_elt. }
      rewrite Forall_forall in LW0. specialize (LW0 _ HI). unfold lexed in LW0. apply lex_types in LW0 as [LW0 _]. auto. }
    destruct (LX _ _ _ E KX NE) as [LU LX1].
    pose proof E as E2. unfold W in E2.
    eapply anchor in E2 as [EP [E1 E2]]; eauto.
    injection E2 as <- <- E3. 
    assert (Kk : tkind (tt k) = KOther) by (rewrite Hk; reflexivity).
    assert (E4 : W = (u ++ x1 :: tok_of c2 :: tok_of c3 :: v) ++ k :: b) by (rewrite E, <- app_assoc; reflexivity).
    destruct (LX _ _ _ E4 Kk) as [LV Lk]; [rewrite Hk; discriminate|].
    apply Forall_app in LV as [_ LV]. inversion LV as [|? ? _ LV2]; subst. inversion LV2 as [|? ? _ LV3]; subst.
    inversion LV3 as [|? ? _ LV4]; subst.
    eapply anchor in E3 as [EQ [E5 E6]]; eauto; [|now apply lexed_tok_of].
    subst b. rewrite EQ. split; [rewrite tokens_pre; exact Hb | exact HRe].
Qed.

Lemma strip_plain_app n x : Forall letter n -> strip 0 (n ++ x) = n ++ strip 0 x.
Proof.
  induction 1 as [|c n Hc H IH]; [reflexivity|]. cbn [app]. rewrite strip_step.
  replace (rkind c) with KOther; [now rewrite IH|].
  destruct (letter_kind c Hc) as [K _]. rewrite <- K. symmetry.
  pose proof (lexed_tok_of c (letter_ascii c Hc)) as L. unfold lexed in L. apply lex_kind in L. symmetry. exact L.
Qed.

Lemma strip_day_name p n q rest : blank p -> blank q -> day_name n ->
  strip_text (p ++ n ++ q ++ bs "," ++ rest) = n ++ 44%N :: strip_text rest.
Proof.
  intros BP BQ HN. pose proof (day_name_letters _ HN) as HL. pose proof (letters_ascii _ HL) as HA.
  assert (D : decode (p ++ n ++ q ++ bs "," ++ rest) = decode p ++ n ++ decode q ++ 44%N :: decode rest).
  { pose proof (dow_nonempty _ HN) as HE. destruct n as [|c n]; [congruence|]. inversion HA as [|? ? Hc HA2]; subst. clear HA; rename HA2 into HA.
    cbn [app]. rewrite decode_split by assumption. f_equal. f_equal. rewrite decode_app_ascii by assumption. f_equal.
    cbn [bs list_ascii_of_string map app]. apply decode_split. reflexivity. }
  unfold strip_text. rewrite D, !filter_app, BP. change (filter bmp n) with (filter bmp n : list N). rewrite (ascii_bmp n : _ -> @eq (list rune) _ _) by assumption.
  rewrite strip_plain_app by assumption. f_equal. rewrite BQ. reflexivity.
Qed.

(** The stripped text begins with the first visible token. *)
Lemma strip_first e s u d v : tokens e s = u ++ d :: v -> skips u -> tkind (tt d) = KOther -> tt d <> T_EOF ->
  Forall (fun t => tt t <> T_Invalid) (tokens e s) -> exists l, strip_text s = tr d :: l.
Proof.
  intros E SU KD ND HV. rewrite tokens_spell in E by assumption.
  destruct v as [|v0 v _] using rev_ind.
  - apply app_inj_tail in E as [_ <-]. exfalso. now apply ND.
  - change (u ++ d :: v ++ [v0]) with (u ++ (d :: v) ++ [v0]) in E. rewrite app_assoc in E.
    apply app_inj_tail in E as [E _]. unfold strip_text.
    rewrite <- (map_tr_tok_of (filter bmp (decode s))), <- tscan_strip by apply toks_lexed.
    rewrite E, SU. cbn [tscan]. rewrite KD. cbn [map]. eauto.
Qed.

Definition with_dow (n : list rune) (d : date_text) : date_text :=
  mkDate n (d_day d) (d_mon d) (d_year d) (d_hour d) (d_min d) (d_sec d) (d_zone d).

Lemma denotes_with_dow now n d t : n = [] \/ day_name n -> denotes now d t -> denotes now (with_dow n d) t.
Proof. intros Hn (_ & H). split; [exact Hn | exact H]. Qed.

Lemma spell_with_dow n d : n <> [] -> d_dow d = [] -> spell (with_dow n d) = n ++ 44%N :: spell d.
Proof.
  intros Hn Hd. unfold spell, with_dow. cbn [d_dow d_day d_mon d_year d_hour d_min d_sec d_zone]. rewrite Hd.
  destruct n as [|c n]; [congruence|]. rewrite <- (app_assoc (c :: n)). reflexivity.
Qed.

Lemma rest_reading e rest : lang g_rest (tokens e rest) ->
  exists d t, rest <> [] /\ strip_text rest = spell d /\ d_dow d = [] /\ denotes (now_of e) d t /\
    ParseDateTime e rest = Ret t None.
Proof.
  intros HL.
  assert (HD : lang (Nt R_dateTime) (tokens e rest)) by (apply dateTime_word; now left).
  pose proof (lang_no_invalid _ _ HD) as HV.
  apply rest_word in HL as [u [k [v [E [SU HK]]]]].
  assert (Hne : rest <> []).
  { intros ->. destruct u as [|? [|? ?]]; try discriminate. injection E as <- _. discriminate HK. }
  destruct (strip_first e rest u k v E SU) as [l Hl]; try assumption; try (rewrite HK; discriminate || reflexivity).
  destruct (parse_date_time_cases e rest) as [[E0 _]|[[_ [NL _]]|[_ [ch [_ [D [Y [_ R]]]]]]]]; [contradiction|contradiction|].
  destruct (tree_time e rest ch D Y) as [d [S P]]. exists d, (time_value (wenv_of e) ch).
  split; [assumption|]. split; [assumption|]. split; [|split; assumption].
  destruct P as [[H|H] _]; [assumption|]. exfalso.
  pose proof (dow_nonempty _ H) as N0.
  assert (HLt : Forall letter (d_dow d)) by (apply day_name_letters; exact H).
  unfold spell in S. revert N0 HLt S. generalize (d_dow d). intros [|c n] N0 HLt S; [exfalso; apply N0; reflexivity|]. rewrite Hl in S. injection S as S _.
  inversion HLt as [|? ? Hc _]; subst.
  assert (LK : lexed k).
  { rewrite tokens_spell in E by assumption.
    assert (HI : In k (map tok_of (filter bmp (decode rest)) ++ [eof_tok])) by (rewrite E; apply in_elt).
    apply in_app_iff in HI as [HI|[HI|[]]].
    - pose proof (toks_lexed (decode rest)) as LL. rewrite Forall_forall in LL. auto.
    - subst k. discriminate. }
  destruct (letter_kind _ Hc) as [_ K2]. apply K2. unfold tok_of. cbn [tt]. unfold lexed in LK. rewrite LK. exact HK.
Qed.

Lemma day_name_accepted e p n q rest : blank p -> blank q -> day_name n ->
  lang g_rest (tokens e rest) -> lang (Nt R_dateTime) (tokens e (p ++ n ++ q ++ bs "," ++ rest)) ->
  exists t, rest <> [] /\ ParseDateTime e rest = Ret t None /\ ParseDateTime e (p ++ n ++ q ++ bs "," ++ rest) = Ret t None.
Proof.
  intros BP BQ HN HR HL. destruct (rest_reading e rest HR) as (d & t & Hne & S & D0 & P & R).
  exists t. split; [assumption|]. split; [exact R|].
  destruct (parse_date_time_cases e (p ++ n ++ q ++ bs "," ++ rest)) as [[E0 _]|[[_ [NL _]]|[_ [ch [_ [D [Y [_ R']]]]]]]].
  - apply (f_equal (@length _)) in E0. rewrite !app_length in E0. cbn in E0. lia.
  - contradiction.
  - rewrite R'. destruct (tree_time e _ ch D Y) as [d' [S' P']].
    rewrite strip_day_name in S' by assumption. rewrite S, <- spell_with_dow in S' by auto using dow_nonempty.
    destruct (reading_unique _ _ _ _ _ (denotes_with_dow _ n _ _ (or_intror HN) P) P' S') as [_ <-]. reflexivity.
Qed.

Lemma accepted_lang e s t : s <> [] -> ParseDateTime e s = Ret t None -> lang (Nt R_dateTime) (tokens e s).
Proof.
  intros Hs H. destruct (parse_date_time_cases e s) as [[E _]|[[_ [_ E]]|[_ [ch [_ [D [Y _]]]]]]].
  - contradiction.
  - rewrite E in H. discriminate.
  - apply lang_nt. exists ch. auto.
Qed.

Lemma dated_nonempty (p n q rest : gostring) : p ++ n ++ q ++ bs "," ++ rest <> [].
Proof. intros E. apply (f_equal (@length _)) in E. rewrite !app_length in E. cbn in E. lia. Qed.

(** C41 *)
Theorem C41_day_name_ignored :
  (* replacing the day name *)
  (forall e p n1 n2 q rest t, blank p -> blank q -> day_name n1 -> day_name n2 ->
     ParseDateTime e (p ++ n1 ++ q ++ bs "," ++ rest) = Ret t None ->
     ParseDateTime e (p ++ n2 ++ q ++ bs "," ++ rest) = Ret t None) /\
  (* removing it, with what surrounds it and the comma *)
  (forall e p n q rest t, blank p -> blank q -> day_name n ->
     ParseDateTime e (p ++ n ++ q ++ bs "," ++ rest) = Ret t None ->
     rest <> [] /\ ParseDateTime e rest = Ret t None) /\
  (* adding one *)
  (forall e n rest t d, day_name n -> rest <> [] -> ParseDateTime e rest = Ret t None ->
     strip_text rest = spell d -> wf_date d -> d_dow d = [] ->
     ParseDateTime e (n ++ bs "," ++ rest) = Ret t None).
Proof.
  assert (REM : forall e p n q rest t, blank p -> blank q -> day_name n ->
     ParseDateTime e (p ++ n ++ q ++ bs "," ++ rest) = Ret t None ->
     rest <> [] /\ ParseDateTime e rest = Ret t None).
  { intros e p n q rest t BP BQ HN H. pose proof (accepted_lang _ _ _ (dated_nonempty _ _ _ _) H) as HL.
    destruct (day_name_split e p n q rest BP BQ HN HL) as [HR _].
    destruct (day_name_accepted e p n q rest BP BQ HN HR HL) as [t' [Hne [R1 R2]]]. split; [assumption|]. congruence. }
  split; [|split; [exact REM|]].
  - intros e p n1 n2 q rest t BP BQ H1 H2 H. pose proof (accepted_lang _ _ _ (dated_nonempty _ _ _ _) H) as HL.
    destruct (day_name_split e p n1 q rest BP BQ H1 HL) as [HR HW].
    assert (HL2 : lang (Nt R_dateTime) (tokens e (p ++ n2 ++ q ++ bs "," ++ rest))).
    { apply dateTime_word. right. exists (pre e p ++ toks n2 ++ pre e q), (tok_of 44%N), (tokens e rest).
      split; [|split; [apply HW; now apply lang_dayName | split; [reflexivity | assumption]]].
      rewrite tokens_pre, day_name_tokens by assumption. rewrite tokens_pre, <- !app_assoc. reflexivity. }
    destruct (day_name_accepted e p n2 q rest BP BQ H2 HR HL2) as [t' [_ [R1 R2]]].
    apply REM in H as [_ H]; try assumption. congruence.
  - intros e n rest t d HN Hne H S W HD.
    pose proof (accepted_lang _ _ _ Hne H) as HL. pose proof (lang_no_invalid _ _ HL) as HV.
    assert (HR : lang g_rest (tokens e rest)).
    { apply dateTime_word in HL as [HL|[a [k [b [E [Ha [Hk Hb]]]]]]]; [assumption|]. exfalso.
      apply dayOfweek_word in Ha as [u [nm [v [-> [SU [_ [HNm _]]]]]]].
      apply dayName_word in HNm as [x1 [x2 [x3 [-> [KX NX]]]]].
      rewrite <- !app_assoc in E. cbn [app] in E.
      assert (LX : x1 = eof_tok \/ lexed x1).
      { rewrite tokens_spell in E by assumption.
        assert (HI : In x1 (map tok_of (filter bmp (decode rest)) ++ [eof_tok])) by (rewrite E; apply in_elt).
        apply in_app_iff in HI as [HI|[HI|[]]]; [right|left; auto].
        pose proof (toks_lexed (decode rest)) as LL. rewrite Forall_forall in LL. auto. }
      destruct LX as [->|LX].
      - rewrite tokens_spell in E by assumption.
        assert (EE : exists z0 z1, x2 :: x3 :: v ++ k :: b = z0 ++ [z1]).
        { destruct (exists_last (l := x2 :: x3 :: v ++ k :: b)) as [z0 [z1 Ez]]; [discriminate | eauto]. }
        destruct EE as [z0 [z1 Ez]]. rewrite Ez in E.
        change (u ++ eof_tok :: z0 ++ [z1]) with (u ++ (eof_tok :: z0) ++ [z1]) in E. rewrite app_assoc in E.
        apply app_inj_tail in E as [E _].
        pose proof (toks_lexed (decode rest)) as LL. rewrite E in LL. apply Forall_app in LL as [_ LL].
        inversion LL as [|? ? LE _]. vm_compute in LE. discriminate.
      - destruct (strip_first e rest u x1 _ E SU KX) as [l Hl]; try assumption.
        { unfold lexed in LX. now apply lex_types in LX. }
        rewrite Hl in S. unfold spell in S. rewrite HD in S. cbn [app] in S.
        assert (ID : is_dig (tr x1)).
        { destruct W as (_ & [[L F]|[L F]] & _); (destruct (d_day d) as [|c0 dd]; [discriminate|]);
            injection S as -> _; now inversion F. }
        apply NX. pose proof (tok_of_digit _ ID) as T. unfold tok_of in T. cbn [tt] in T. unfold lexed in LX. now rewrite LX in T. }
    assert (B0 : blank []) by (intros x; reflexivity).
    assert (HL2 : lang (Nt R_dateTime) (tokens e ([] ++ n ++ [] ++ bs "," ++ rest))).
    { apply dateTime_word. right. exists (toks n), (tok_of 44%N), (tokens e rest).
      split; [|split; [|split; [reflexivity | assumption]]].
      - rewrite tokens_pre, day_name_tokens by assumption. rewrite tokens_pre. change (pre e []) with (@nil tok). cbn [app]. rewrite <- app_assoc. reflexivity.
      - apply lang_nt_i, lang_altl. change (toks n) with ([] ++ toks n). apply lang_seq_i; [apply lang_opt_none | now apply lang_dayName]. }
    destruct (day_name_accepted e [] n [] rest B0 B0 HN HR HL2) as [t' [_ [R1 R2]]]. cbn [app] in R2. congruence.
Qed.

Example C41_example :
  blank (bs "(x)") /\ blank (bs " ") /\ day_name (bs "Mon") /\ day_name (bs "fRI") /\
  exists t, ParseDateTime (mkEnv (mkWenv 2020 None) SkipBad)
              (bs "(x)" ++ bs "Mon" ++ bs " " ++ bs "," ++ bs " 21 Nov 1997 9:55") = Ret t None /\
            t_date t = (1997, 11, 21)%Z.
Proof.
  split; [intros x; reflexivity|]. split; [intros x; reflexivity|].
  split; [vm_compute; tauto|]. split; [vm_compute; tauto|].
  eexists. split; [vm_compute; reflexivity|]. vm_compute. reflexivity.
Qed.

(** ** C46 *)
(** rules without a year *)
Definition no_year (r : rule) : bool := match r with R_year => false | _ => true end.
Definition below_list : list nat := Eval vm_compute in reach R_addressList.

Lemma feed_now y1 y2 c t : all_nodes (fun r _ => no_year r = true) t ->
  forall p, feed (mkWenv y1 c) p t = feed (mkWenv y2 c) p t.
Proof.
  induction t as [t|r ch IH] using tree_ind'; intros H p; [reflexivity|].
  apply all_nodes_node in H as [Hr Hch].
  assert (HF : forall q, fold_left (feed (mkWenv y1 c)) ch q = fold_left (feed (mkWenv y2 c)) ch q).
  { clear Hr p. induction ch as [|x ch IHch]; intros q; [reflexivity|].
    inversion IH; inversion Hch; subst. cbn [fold_left]. rewrite H1 by assumption. auto. }
  cbn [feed].
  assert (EN : enter_node (mkWenv y1 c) r ch = enter_node (mkWenv y2 c) r ch) by (destruct r; try discriminate Hr; reflexivity).
  rewrite EN. destruct (enter_node (mkWenv y2 c) r ch) as [[[n er]|]|]; now rewrite HF.
Qed.

Lemma feeds_now y1 y2 c f : Forall (all_nodes (fun r _ => no_year r = true)) f ->
  forall p, feeds (mkWenv y1 c) p f = feeds (mkWenv y2 c) p f.
Proof.
  induction 1 as [|t f Ht Hf IH]; intros p; [reflexivity|]. rewrite !feeds_cons, (feed_now y1 y2) by assumption. apply IH.
Qed.

Definition under_list (r : rule) : bool := mem_rule r below_list.

Lemma under_list_closed : closed under_list = true.
Proof. vm_compute. reflexivity. Qed.

(** C46 *)
Theorem C46_current_year :
  (* addresses *)
  (forall y1 y2 c m s, ParseAddressList (mkEnv (mkWenv y1 c) m) s = ParseAddressList (mkEnv (mkWenv y2 c) m) s) /\
  (* dates with a four-digit year *)
  (forall y1 y2 c1 c2 m s t d, s <> [] -> ParseDateTime (mkEnv (mkWenv y1 c1) m) s = Ret t None ->
     strip_text s = spell d -> wf_date d -> length (d_year d) = 4%nat ->
     ParseDateTime (mkEnv (mkWenv y2 c2) m) s = Ret t None) /\
  (* whether a date is accepted never depends on the year *)
  (forall y1 y2 c1 c2 m s t, ParseDateTime (mkEnv (mkWenv y1 c1) m) s = Ret t None ->
     exists t', ParseDateTime (mkEnv (mkWenv y2 c2) m) s = Ret t' None).
Proof.
  split; [|split].
  - intros y1 y2 c m s. destruct s as [|b s]; [reflexivity|].
    assert (Hs : b :: s <> []) by discriminate. revert Hs. generalize (b :: s). clear b s. intros s Hs.
    destruct (lang_dec (Nt R_addressList) (tokens (mkEnv (mkWenv y1 c) m) s) (wfg_nt _)) as [HL|HL].
    + apply parse_complete in HL as [t [HT _]]. pose proof HT as HT0. apply parse_derives in HT0 as [D Y].
      apply parse_selected in HT.
      apply derives_nt in D as [ch [E D]]. injection E as ->.
      rewrite (parse_address_list_ok (mkEnv (mkWenv y1 c) m) s ch Hs HT).
      rewrite (parse_address_list_ok (mkEnv (mkWenv y2 c) m) s ch Hs HT).
      unfold list_value. cbn [wenv_of]. rewrite (feeds_now y1 y2); [reflexivity|].
      pose proof (derives_rules under_list _ _ under_list_closed D eq_refl) as HU.
      rewrite Forall_forall in *. intros x Hx. eapply all_nodes_impl; [|apply HU; exact Hx].
      intros r ch' Hr. destruct r; try reflexivity. vm_compute in Hr. discriminate.
    + rewrite !parse_address_list_err; auto.
  - intros y1 y2 c1 c2 m s t d Hs H S W HY.
    pose proof (accepted_lang _ _ _ Hs H) as HL. apply accepted_reading in H as [d1 [S1 P1]]; [|assumption].
    assert (d1 = d) as -> by (apply spell_inj; [eapply denotes_wf; eassumption | assumption | congruence]).
    destruct (parse_date_time_cases (mkEnv (mkWenv y2 c2) m) s) as [[E0 _]|[[_ [NL _]]|[_ [ch [_ [D [Y [_ R]]]]]]]]; [contradiction|contradiction|].
    rewrite R. destruct (tree_time _ s ch D Y) as [d2 [S2 P2]].
    assert (PP : denotes (now_of (mkEnv (mkWenv y2 c2) m)) d t).
    { destruct P1 as (H1 & H2 & H3 & H4 & H5 & H6 & k & l & H7 & H8 & ->).
      refine (conj H1 (conj H2 (conj H3 (conj H4 (conj H5 (conj H6 _)))))). exists k, l. split; [exact H7|]. split; [exact H8|].
      unfold year_num. rewrite HY. reflexivity. }
    assert (ES : spell d2 = spell d) by congruence.
    destruct (reading_unique _ _ _ _ _ P2 PP ES) as [_ ->]. reflexivity.
  - intros y1 y2 c1 c2 m s t H. destruct s as [|b s]; [eexists; reflexivity|].
    assert (Hs : b :: s <> []) by discriminate. revert Hs H. generalize (b :: s). clear b s. intros s Hs H.
    pose proof (accepted_lang _ _ _ Hs H) as HL.
    destruct (parse_date_time_cases (mkEnv (mkWenv y2 c2) m) s) as [[E0 _]|[[_ [NL _]]|[_ [ch [_ [D [Y [_ R]]]]]]]]; [contradiction|contradiction|].
    eauto.
Qed.

Example C46_example :
  strip_text (bs "1 Jan 2050 0:00") = spell (mkDate [] (bs "1") (bs "Jan") (bs "2050") (bs "0") (bs "00") [] []) /\
  exists t, ParseDateTime (mkEnv (mkWenv 2020 None) SkipBad) (bs "1 Jan 2050 0:00") = Ret t None.
Proof. split; [reflexivity|]. eexists. vm_compute. reflexivity. Qed.

Print Assumptions C41_day_name_ignored.
Print Assumptions C46_current_year.
