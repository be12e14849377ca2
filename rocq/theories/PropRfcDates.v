(** C69: date-times of RFC 5322 are read with their meaning in RFC 5322. *)
From Coq Require Import String List NArith ZArith Bool Arith Lia.
From Verif Require Import Lexer Grammar Utf8 Strs Mime GoTime Parser Walker Api Spec ParserFacts
  WalkerFacts Static Total Cfws LangFacts LexFacts Utf8Facts First DateSpec Calendar DateText DateAccept AddrSpec Chosen AddrSem CharFacts PropApi PropInv PropDate
  ScanSpec AddrText MboxList TextLang EncText PropText PropStable PropSize PropLead AcceptText AcceptFacts PropAccept Rfc5322 RfcFacts RfcMeaning RfcSyntax PropRfc RfcDates Dates DateText DateAccept.
Import ListNotations.
Local Open Scope text_scope.

(** ** The parts *)
Lemma digit_is x : DIGIT x -> ndigits 1 x.
Proof. intros (r & -> & R). apply in_range_spec in R. split; [reflexivity|]. constructor; [exact R | constructor]. Qed.

Lemma ndigits_app a b x y : ndigits a x -> ndigits b y -> ndigits (a + b) (x ++ y).
Proof. intros [A F] [B G]. split; [rewrite app_length; now rewrite A, B | apply Forall_app; now split]. Qed.

Lemma two_is x : two DIGIT x -> ndigits 2 x.
Proof. intros (u & v & -> & U & V). exact (ndigits_app 1 1 u v (digit_is u U) (digit_is v V)). Qed.

Lemma four_is x : four DIGIT x -> ndigits 4 x.
Proof.
  intros (u & v & -> & U & V). destruct V as (v1 & v2 & -> & V1 & V2). destruct V2 as (v3 & v4 & -> & V3 & V4).
  exact (ndigits_app 1 3 u _ (digit_is _ U) (ndigits_app 1 2 v1 _ (digit_is _ V1) (ndigits_app 1 1 v3 v4 (digit_is _ V3) (digit_is _ V4)))).
Qed.

Lemma many_digits x : many DIGIT x -> Forall is_dig x.
Proof. induction 1 as [|u v U _ IH]; [constructor|]. apply Forall_app. split; [apply (digit_is _ U) | exact IH]. Qed.

Lemma is_two a b : is_dig a -> is_dig b -> two DIGIT [a; b].
Proof. intros A B. apply (cat_i DIGIT DIGIT [a] [b]); [exists a | exists b]; (split; [reflexivity | now apply in_range_spec]). Qed.

Section parts.
  Variable on : form -> Prop.
  Notation inside := (inside on).
  Notation cfws := (optional (CFWS on)).

  Lemma cfws_fws u : FWS on u -> cfws u.
  Proof. intros H. right. now right. Qed.

  Lemma inside_i g v g' : cfws g -> cfws g' -> inside (g ++ v ++ g') v.
  Proof. intros G G'. exists g, g'. auto. Qed.

  Lemma inside_self v : inside v v.
  Proof. exists [], []. split; [cbn [app]; now rewrite app_nil_r | split; now left]. Qed.

  Lemma one_or_two x : (DIGIT ;; optional DIGIT) x -> ndigits 1 x \/ ndigits 2 x.
  Proof.
    intros (u & v & -> & U & [->|V]); [left; rewrite app_nil_r; now apply digit_is|]. right. exact (ndigits_app 1 1 u v (digit_is _ U) (digit_is _ V)).
  Qed.

  Lemma gapped_inside P x : (cfws ;; P ;; cfws) x -> exists v, inside x v /\ P v.
  Proof. intros (g & y & -> & G & v & g' & -> & V & G'). exists v. split; [now apply inside_i | exact V]. Qed.

  Lemma day_inside x : rfc_day on x -> exists v, inside x v /\ (ndigits 1 v \/ ndigits 2 v).
  Proof.
    intros [H|[_ H]].
    - destruct H as (g & y & -> & G & v & g' & -> & V & G'). exists v. split; [|now apply one_or_two]. apply inside_i; [destruct G as [->|G]; [now left | now apply cfws_fws] | now apply cfws_fws].
    - apply gapped_inside in H as (v & I & V). exists v. split; [exact I | now apply one_or_two].
  Qed.

  Lemma two_inside f x : (two DIGIT <|> may on f (cfws ;; two DIGIT ;; cfws)) x -> exists v, inside x v /\ ndigits 2 v.
  Proof.
    intros [H|[_ H]]; [exists x; split; [apply inside_self | now apply two_is]|]. apply gapped_inside in H as (v & I & V). exists v. split; [exact I | now apply two_is].
  Qed.

  Lemma hour_inside x : rfc_hour on x -> exists v, inside x v /\ (ndigits 1 v \/ ndigits 2 v).
  Proof.
    intros [H|[H|[_ H]]].
    - exists x. split; [apply inside_self | right; now apply two_is].
    - destruct (two_inside O_hour x (or_intror H)) as (v & I & V). exists v. auto.
    - apply gapped_inside in H as (v & I & V). exists v. split; [exact I | left; now apply digit_is].
  Qed.

  Lemma year_inside x : rfc_year on x -> exists v, inside x v /\ Forall is_dig v /\
    (ndigits 4 v \/ on Long_year \/ on O_year /\ ndigits 2 v \/ on O_long_obs_year).
  Proof.
    intros [H|[[L H]|[[L H]|[L H]]]].
    - destruct H as (g & y & -> & G & v & g' & -> & V & G'). exists v. split; [apply inside_i; now apply cfws_fws|]. pose proof (four_is _ V) as F. split; [apply F | now left].
    - destruct H as (g & y & -> & G & v & z & -> & V & w & g' & -> & W & G'). exists (v ++ w). split; [rewrite (app_assoc v); apply inside_i; now apply cfws_fws|]. split; [|right; now left].
      apply Forall_app. split; [apply (four_is _ V)|]. destruct W as (a & b & -> & A & B). apply Forall_app. split; [apply (digit_is _ A) | now apply many_digits].
    - apply gapped_inside in H as (v & I & V). exists v. split; [exact I|]. pose proof (two_is _ V). split; [apply H | right; right; left; now split].
    - destruct H as (g & y & -> & G & v & z & -> & V & w & g' & -> & W & G'). exists (v ++ w). split; [rewrite (app_assoc v); now apply inside_i|]. split; [|right; right; now right].
      apply Forall_app. split; [apply (two_is _ V)|]. destruct W as (a & b & -> & A & B). apply Forall_app. split; [apply (digit_is _ A) | now apply many_digits].
  Qed.

  Lemma dow_inside x : day_of_week on x -> exists v, inside x v /\ In (to_lower v) day_names.
  Proof.
    intros [H|[_ H]]; [|now apply gapped_inside in H].
    destruct H as (g & v & -> & G & V). exists v. split; [|exact V]. exists g, []. split; [now rewrite app_nil_r|]. split; [|now left]. destruct G as [->|G]; [now left | now apply cfws_fws].
  Qed.

  (** ** Every text of the syntax has a meaning *)
  Lemma month_some mo : rfc_month mo -> exists n, month_means mo n.
  Proof. intros H. apply In_nth_error in H as [k K]. eexists. exists k. split; [exact K | reflexivity]. Qed.

  Lemma zone_some z : rfc_zone on z -> exists n, zone_means on z n.
  Proof.
    assert (F4 : forall x, four DIGIT x -> exists h m, x = h ++ m /\ two DIGIT h /\ two DIGIT m).
    { intros x (u & v & -> & U & v1 & v2 & -> & V1 & V2). exists (u ++ v1), v2. split; [now rewrite <- app_assoc|]. split; [now exists u, v1 | exact V2]. }
    intros [H|[[O H]|[[O H]|[[O H]|[[O H]|[O H]]]]]].
    - destruct H as (u & y & -> & U & s & v & -> & S & V). destruct (F4 _ V) as (h & m & -> & Hh & Hm). destruct S as [S|S]; unfold lit in S; subst s; eexists; [now apply zm_east | now apply zm_west].
    - assert (E : exists k, In (to_lower z, k) rfc_zone_hours). { unfold obs_zone, named in H. cbn [In] in H. destruct H as [H|[H|[H|[H|[H|[H|[H|[H|[H|[H|[]]]]]]]]]]]; rewrite <- H; eexists; cbn; eauto 20. }
      destruct E as [k K]. eexists. now apply (zm_name on z k).
    - eexists. now apply zm_military.
    - destruct H as (u & v & -> & U & V). destruct (F4 _ V) as (h & m & -> & Hh & Hm). eexists. now apply zm_unsigned.
    - eexists. apply zm_UTC; [exact O|]. destruct H as [H|[]]. now rewrite <- H.
    - unfold lit in H. subst z. eexists. now apply zm_none.
  Qed.

  Lemma zone_syntax z n : zone_means on z n -> rfc_zone on z.
  Proof.
    assert (F4 : forall h m, two DIGIT h -> two DIGIT m -> four DIGIT (h ++ m)).
    { intros h m (u & v & -> & U & V) M. rewrite <- app_assoc. apply cat_i; [exact U|]. now apply cat_i. }
    intros [u h m U A B|u h m U A B|x h O H|x O H|u h m O U A B|x O H|O].
    - left. apply cat_i; [exact U|]. apply cat_i; [now left | now apply F4].
    - left. apply cat_i; [exact U|]. apply cat_i; [now right | now apply F4].
    - right. left. split; [exact O|]. apply (in_map fst) in H. cbn [fst map rfc_zone_hours] in H. unfold obs_zone, named. cbn [In] in *. tauto.
    - right. right. left. now split.
    - right. right. right. left. split; [exact O|]. apply cat_i; [exact U | now apply F4].
    - right. right. right. right. left. split; [exact O|]. left. now symmetry.
    - right. right. right. right. right. now split.
  Qed.

  Lemma number_some x v : inside x v -> Forall is_dig v -> number_means on x (num v).
  Proof. intros I F. exists v. auto. Qed.

  Lemma date_time_some x : rfc_date_time on x -> exists m, date_time_means on x m.
  Proof.
    intros H. assert (E : (optional (day_of_week on ;; lit ",") ;; rfc_day on ;; rfc_month ;; rfc_year on ;; rfc_hour on ;; lit ":" ;; rfc_minute on ;; optional (lit ":" ;; rfc_second on) ;; rfc_zone on ;; optional (CFWS on)) x).
    { eapply same_sub; [|exact H]. unfold rfc_date_time, time_of_day. rewrite !cat_assoc. reflexivity. }
    destruct E as (w & x1 & -> & W & d & x2 & -> & D & mo & x3 & -> & Mo & y & x4 & -> & Y & h & x5 & -> & Hh & co & x6 & -> & Co & mi & x7 & -> & Mi & s & x8 & -> & S & z & g & -> & Z & G).
    unfold lit in Co. subst co.
    destruct (day_inside _ D) as (vd & Id & Vd). destruct (month_some _ Mo) as [nmo Hmo]. destruct (year_inside _ Y) as (vy & Iy & Vy & _). destruct (hour_inside _ Hh) as (vh & Ih & Vh).
    destruct (two_inside O_minute _ Mi) as (vm & Im & Vm). destruct (zone_some _ Z) as [nz Hz].
    assert (HS : exists ns, seconds_mean on s ns).
    { destruct S as [->|(c & v & -> & C & S)]; [eexists; constructor|]. unfold lit in C. subst c. destruct (two_inside O_second _ S) as (vs & Is & Vs). eexists. apply sm_some; [exact S | apply number_some; [exact Is | apply Vs]]. }
    destruct HS as [ns HS]. eexists. eapply dt_means; try eassumption.
    - apply number_some; [exact Id | destruct Vd as [V|V]; apply V].
    - exists vy. auto.
    - apply number_some; [exact Ih | destruct Vh as [V|V]; apply V].
    - apply number_some; [exact Im | apply Vm].
  Qed.

  Lemma month_syntax mo n : month_means mo n -> rfc_month mo.
  Proof. intros (k & K & _). exact (nth_error_In _ _ K). Qed.

  Lemma date_time_syntax x m : date_time_means on x m -> rfc_date_time on x.
  Proof.
    intros [w d mo y h mi s z g nd nmo ny nh nmi ns nz W D _ Mo Y _ Hh _ Mi _ S Z G].
    assert (E : (optional (day_of_week on ;; lit ",") ;; rfc_day on ;; rfc_month ;; rfc_year on ;; rfc_hour on ;; lit ":" ;; rfc_minute on ;; optional (lit ":" ;; rfc_second on) ;; rfc_zone on ;; optional (CFWS on)) (w ++ d ++ mo ++ y ++ h ++ bs ":" ++ mi ++ s ++ z ++ g)).
    { apply cat_i; [exact W|]. apply cat_i; [exact D|]. apply cat_i; [exact (month_syntax _ _ Mo)|]. apply cat_i; [exact Y|]. apply cat_i; [exact Hh|]. apply cat_lit. apply cat_i; [exact Mi|].
      apply cat_i; [destruct S as [|v ns S _]; [now left | right; now apply cat_lit]|]. apply cat_i; [exact (zone_syntax _ _ Z) | exact G]. }
    eapply same_sup; [|exact E]. unfold rfc_date_time, time_of_day. rewrite !cat_assoc. reflexivity.
  Qed.
End parts.

(** ** The characters that are not in comments and white space *)
Lemma bmps_digits v : Forall is_dig v -> bmps v.
Proof. apply Forall_impl. intros r [A B]. apply N.leb_le. lia. Qed.

Lemma bmps_letters v : Forall letter v -> bmps v.
Proof. intros H. apply asciis_letter in H. revert H. apply Forall_impl. intros r A. unfold ascii in A. apply N.leb_le. lia. Qed.

Section reading.
  Variable on : form -> Prop.
  Hypothesis no_fws : ~ on O_FWS.
  Hypothesis no_high : ~ on U_high_characters.
  Notation ocfws_in := (ocfws_in on no_fws no_high).

  Lemma inside_strip x v rest : inside on x v -> Forall plain v -> bmps v -> bmps rest -> strip 0 (x ++ rest) = v ++ strip 0 rest.
  Proof.
    intros (g & g' & -> & G & G') P B R. apply ocfws_in in G, G'. rewrite <- !app_assoc. assert (B' : bmps (v ++ g' ++ rest)) by (apply Forall_app; split; [exact B|]; apply Forall_app; split; [now apply gap_bmp | exact R]).
    rewrite (gap_strip g _ G B'). rewrite (strip_plain v _ P). f_equal. now apply gap_strip.
  Qed.

  Lemma inside_unique x v v' : inside on x v -> inside on x v' -> Forall is_dig v -> Forall is_dig v' -> v = v'.
  Proof.
    intros I I' F F'. pose proof (inside_strip x v [] I (plains_digit _ F) (bmps_digits _ F) (Forall_nil _)) as E.
    pose proof (inside_strip x v' [] I' (plains_digit _ F') (bmps_digits _ F') (Forall_nil _)) as E'. rewrite E in E'. change (strip 0 []) with (@nil rune) in E'. now rewrite !app_nil_r in E'.
  Qed.

  Lemma step (x rest v r : list rune) : strip 0 (x ++ rest) = v ++ strip 0 rest -> strip 0 rest = r -> strip 0 (x ++ rest) = v ++ r.
  Proof. intros E <-. exact E. Qed.

  Hypothesis no_long : ~ on Long_year.
  Hypothesis no_obs_long : ~ on O_long_obs_year.
  Hypothesis no_military : ~ on O_military.

  Lemma number_of x v n : inside on x v -> Forall is_dig v -> number_means on x n -> n = num v.
  Proof. intros I F (v' & I' & F' & ->). now rewrite (inside_unique x v v' I I' F F'). Qed.

  Lemma zone_read z n : zone_means on z n -> exists v l, zone_text v l /\ loc_offset l = n /\ forall rest, bmps rest -> strip 0 (z ++ rest) = v ++ strip 0 rest.
  Proof.
    assert (T : forall u v l, FWS on u -> zone_text v l -> forall rest, bmps rest -> strip 0 ((u ++ v) ++ rest) = v ++ strip 0 rest).
    { intros u v l U Z rest R. destruct (zone_plain _ _ Z) as [P A]. apply inside_strip; [|exact P| |exact R].
      - exists u, []. split; [now rewrite app_nil_r|]. split; [now apply cfws_fws | now left].
      - revert A. apply Forall_impl. intros r A. unfold ascii in A. apply N.leb_le. lia. }
    assert (Z0 : forall v l, zone_text v l -> forall rest, bmps rest -> strip 0 (v ++ rest) = v ++ strip 0 rest).
    { intros v l Z rest R. destruct (zone_plain _ _ Z) as [P _]. now apply strip_plain. }
    assert (D2 : forall h, two DIGIT h -> exists a b, h = [a; b] /\ is_dig a /\ is_dig b).
    { intros h H. apply two_is in H as [L F]. destruct h as [|a [|b [|c h]]]; try discriminate L. exists a, b. split; [reflexivity|]. split; [exact (Forall_inv F) | exact (Forall_inv (Forall_inv_tail F))]. }
    intros [u h m U A B|u h m U A B|x h O H|x O H|u h m O U A B|x O H|O].
    - destruct (D2 _ A) as (h1 & h2 & -> & H1 & H2). destruct (D2 _ B) as (m1 & m2 & -> & M1 & M2). pose proof (Z_plus h1 h2 m1 m2 ltac:(repeat (constructor; [assumption|]); constructor)) as Z.
      eexists _, _. split; [exact Z|]. split; [unfold hours_minutes, num; cbn [loc_offset fold_left]; lia | exact (T u _ _ U Z)].
    - destruct (D2 _ A) as (h1 & h2 & -> & H1 & H2). destruct (D2 _ B) as (m1 & m2 & -> & M1 & M2). pose proof (Z_minus h1 h2 m1 m2 ltac:(repeat (constructor; [assumption|]); constructor)) as Z.
      eexists _, _. split; [exact Z|]. split; [unfold hours_minutes, num; cbn [loc_offset fold_left]; lia | exact (T u _ _ U Z)].
    - assert (K : In (to_lower x, h) zone_names) by (revert H; generalize (to_lower x, h); intros p P; cbn [In rfc_zone_hours zone_names] in *; tauto).
      pose proof (Z_name x h K) as Z. eexists _, _. split; [exact Z|]. split; [cbn [loc_offset]; lia | exact (Z0 _ _ Z)].
    - contradiction.
    - destruct (D2 _ A) as (h1 & h2 & -> & H1 & H2). destruct (D2 _ B) as (m1 & m2 & -> & M1 & M2). pose proof (Z_nosign h1 h2 m1 m2 ltac:(repeat (constructor; [assumption|]); constructor)) as Z.
      eexists _, _. split; [exact Z|]. split; [unfold hours_minutes, num; cbn [loc_offset fold_left]; lia | exact (T u _ _ U Z)].
    - assert (K : In (to_lower x, 0%Z) zone_names) by (rewrite H; cbn; tauto). pose proof (Z_name x 0 K) as Z. eexists _, _. split; [exact Z|]. split; [reflexivity | exact (Z0 _ _ Z)].
    - exists [], UTC. split; [constructor|]. split; [reflexivity | intros rest R; reflexivity].
  Qed.

  (** the parts of the stripped text and what they have to do with the meaning *)
  Lemma date_time_read x m : date_time_means on x m -> bmps x -> exists d, strip 0 x = spell d /\ wf_date d /\
    m_year m = rfc_year_value (d_year d) /\ (length (d_year d) = 2 -> on O_year) /\
    (exists k, nth_error month_names k = Some (to_lower (d_mon d)) /\ m_month m = (Z.of_nat k + 1)%Z) /\
    m_day m = num (d_day d) /\ m_hour m = num (d_hour d) /\ m_minute m = num (d_min d) /\ m_second m = num (d_sec d) /\
    exists l, zone_text (d_zone d) l /\ m_offset m = loc_offset l.
  Proof.
    intros [w d mo y h mi s z g nd nmo ny nh nmi ns nz W D Nd Mo Y Ny Hh Nh Mi Nmi S Z G] B.
    destruct (day_inside _ _ D) as (vd & Id & Vd). destruct (year_inside _ _ Y) as (vy & Iy & Fy & Vy). destruct (hour_inside _ _ Hh) as (vh & Ih & Vh). destruct (two_inside _ O_minute _ Mi) as (vm & Im & Vm).
    assert (Fd : Forall is_dig vd) by (destruct Vd as [V|V]; apply V). assert (Fh : Forall is_dig vh) by (destruct Vh as [V|V]; apply V). assert (Fm : Forall is_dig vm) by apply Vm.
    assert (Wy : (ndigits 2 vy \/ ndigits 4 vy) /\ (length vy = 2 -> on O_year)).
    { destruct Vy as [V|[V|[[O V]|V]]]; try contradiction; (split; [auto|]); [|now intros _]. destruct V as [L _]. rewrite L. discriminate. }
    destruct (zone_read _ _ Z) as (vz & l & Tz & Lz & Sz). destruct Mo as (k & K & Nmo).
    assert (HS : exists vs, (vs = [] \/ ndigits 2 vs) /\ ns = num vs /\ forall rest, bmps rest -> strip 0 (s ++ rest) = match vs with [] => [] | c :: v => bs ":" ++ c :: v end ++ strip 0 rest).
    { destruct S as [|v ns S N]; [exists []; split; [now left|]; split; [reflexivity|]; reflexivity|]. destruct (two_inside _ O_second _ S) as (vs & Is & Vs). exists vs. split; [now right|]. split; [apply (number_of v vs _ Is); [apply Vs | exact N]|].
      intros rest R. assert (F : Forall is_dig vs) by apply Vs. rewrite <- app_assoc. refine (eq_trans (strip_plain (bs ":") (v ++ rest) ltac:(constructor; [apply rkind_other; discriminate | constructor])) _).
      refine (eq_trans (f_equal (app (bs ":")) (inside_strip v vs rest Is (plains_digit _ F) (bmps_digits _ F) R)) _). destruct vs as [|c vs]; [destruct Vs as [L _]; discriminate L | reflexivity]. }
    destruct HS as (vs & Vs & Ns & Ss).
    assert (HW : exists vw, (vw = [] \/ In (to_lower vw) day_names) /\ forall rest, bmps rest -> strip 0 (w ++ rest) = match vw with [] => [] | c :: v => (c :: v) ++ bs "," end ++ strip 0 rest).
    { destruct W as [->|(v & c & -> & V & C)]; [exists []; split; [now left | reflexivity]|]. unfold lit in C. subst c. destruct (dow_inside _ _ V) as (vw & Iw & Vw). exists vw. split; [now right|].
      intros rest R. pose proof (lower_letters _ _ Vw day_names_letters) as L. rewrite <- app_assoc.
      refine (eq_trans (inside_strip v vw (bs "," ++ rest) Iw (plains_letter _ L) (bmps_letters _ L) ltac:(constructor; [reflexivity | exact R])) _).
      refine (eq_trans (f_equal (app vw) (strip_plain (bs ",") rest ltac:(constructor; [apply rkind_other; discriminate | constructor]))) _).
      destruct vw as [|c vw]; [exfalso; exact (dow_nonempty [] Vw eq_refl)|]. now rewrite <- app_assoc. }
    destruct HW as (vw & Vw & Sw).
    assert (Lmo : Forall letter mo) by (apply (lower_letters month_names mo); [exact (nth_error_In _ _ K) | apply month_names_letters]).
    exists (mkDate vw vd mo vy vh vm vs vz). cbn [d_dow d_day d_mon d_year d_hour d_min d_sec d_zone m_year m_month m_day m_hour m_minute m_second m_offset]. split.
    - assert (B' := B). apply Forall_app in B' as [_ B']. pose proof B' as B1. apply Forall_app in B' as [_ B']. pose proof B' as B2. apply Forall_app in B' as [_ B']. pose proof B' as B3. apply Forall_app in B' as [_ B']. pose proof B' as B4.
      apply Forall_app in B' as [_ B']. pose proof B' as B5. apply Forall_app in B' as [_ B']. pose proof B' as B6. apply Forall_app in B' as [_ B']. pose proof B' as B7. apply Forall_app in B' as [_ B']. pose proof B' as B8. apply Forall_app in B' as [_ B9].
      unfold spell. cbn [d_dow d_day d_mon d_year d_hour d_min d_sec d_zone]. 
      apply (step _ _ _ _ (Sw _ B1)). apply (step _ _ _ _ (inside_strip d vd _ Id (plains_digit _ Fd) (bmps_digits _ Fd) B2)).
      apply (step _ _ _ _ (strip_plain mo _ (plains_letter _ Lmo))). apply (step _ _ _ _ (inside_strip y vy _ Iy (plains_digit _ Fy) (bmps_digits _ Fy) B4)).
      apply (step _ _ _ _ (inside_strip h vh _ Ih (plains_digit _ Fh) (bmps_digits _ Fh) B5)).
      apply (step _ _ _ _ (strip_plain (bs ":") _ ltac:(constructor; [apply rkind_other; discriminate | constructor]))).
      apply (step _ _ _ _ (inside_strip mi vm _ Im (plains_digit _ Fm) (bmps_digits _ Fm) B7)). apply (step _ _ _ _ (Ss _ B8)).
      refine (eq_trans (Sz _ B9) _). refine (eq_trans (f_equal (app vz) (_ : strip 0 g = [])) (app_nil_r vz)). refine (eq_trans (f_equal (strip 0) (eq_sym (app_nil_r g))) _). exact (gap_strip g [] (ocfws_in _ G) (Forall_nil _)).
    - split; [|split; [|split; [apply Wy|split; [|split; [|split; [|split; [|split; [exact Ns|]]]]]]]].
      + unfold wf_date. cbn [d_dow d_day d_mon d_year d_hour d_min d_sec d_zone]. refine (conj Vw (conj Vd (conj (proj1 Wy) (conj Vh (conj Vm (conj Vs (conj (nth_error_In _ _ K) _))))))). now exists l.
      + destruct Ny as (v & I & F & ->). now rewrite (inside_unique y v vy I Iy F Fy).
      + now exists k.
      + exact (number_of _ _ _ Id Fd Nd).
      + exact (number_of _ _ _ Ih Fh Nh).
      + exact (number_of _ _ _ Im Fm Nmi).
      + exists l. split; [exact Tz | now symmetry].
  Qed.
End reading.

(** ** C69 *)
Lemma limits_off (on : form -> Prop) : (forall f, on f -> ~ In f date_limits) ->
  ~ on O_FWS /\ ~ on U_high_characters /\ ~ on Long_year /\ ~ on O_long_obs_year /\ ~ on O_military.
Proof. intros H. repeat split; intros A; apply (H _ A); cbn; tauto. Qed.

Lemma means_nonempty (on : form -> Prop) s m : date_time_means on (decode s) m -> s <> [].
Proof.
  intros H ->. change (decode []) with (@nil rune) in H. remember (@nil rune) as x eqn:E. destruct H as [w d mo y h mi sc z g nd nmo ny nh nmi ns nz W D Nd Mo Y Ny Hh Nh Mi Nmi S Z G].
  apply (f_equal (@length N)) in E. rewrite !app_length in E. cbn [length] in E. change (length (bs ":")) with 1 in E. lia.
Qed.

Lemma means_bmps (on : form -> Prop) x m : (forall f, on f -> ~ In f date_limits) -> date_time_means on x m -> bmps x.
Proof. intros L H. apply date_time_syntax in H. apply (limits_date on L) in H. exact (proj1 (proj2 (before_dateTime _) H)). Qed.

(** what the call returns, in terms of the meaning *)
Lemma read_with_year (on : form -> Prop) e s m : (forall f, on f -> ~ In f date_limits) -> date_time_means on (decode s) m ->
  exists d t, ParseDateTime e s = Ret t None /\ strip_text s = spell d /\ wf_date d /\ denotes (now_of e) d t /\
    m_year m = rfc_year_value (d_year d) /\ (length (d_year d) = 2 -> on O_year) /\
    t = go_date (year_num (now_of e) (d_year d)) (m_month m) (m_day m) (m_hour m) (m_minute m) (m_second m) (t_loc t) /\
    t_unix t = instant (mkMoment (year_num (now_of e) (d_year d)) (m_month m) (m_day m) (m_hour m) (m_minute m) (m_second m) (m_offset m)) /\
    loc_offset (t_loc t) = m_offset m.
Proof.
  intros L H. pose proof (means_nonempty _ _ _ H) as N. pose proof (means_bmps _ _ _ L H) as B. destruct (limits_off _ L) as (L1 & L2 & L3 & L4 & L5).
  destruct (date_time_read on L1 L2 L3 L4 L5 _ _ H B) as (d & S & W & Yy & O2 & (k & K & Km) & Ed & Eh & Em & Es & l & Zl & El).
  assert (A : exists t, ParseDateTime e s = Ret t None).
  { apply C57_accepted_dates; [exact N|]. rewrite (bmps_kept _ B). split; [apply (limits_date on L); exact (date_time_syntax _ _ _ H) | now apply bmps_lexes]. }
  destruct A as [t T]. exists d, t. split; [exact T|]. assert (S' : strip_text s = spell d) by (rewrite strip_kept, (bmps_kept _ B); exact S). split; [exact S'|]. split; [exact W|].
  destruct (accepted_reading _ _ _ N T) as (d' & Sd & D). assert (d' = d) as -> by (apply spell_inj; [exact (denotes_wf _ _ _ D) | exact W | congruence]).
  split; [exact D|]. split; [exact Yy|]. split; [exact O2|].
  destruct (denotes_unix _ _ _ D) as (k' & K' & Z' & U). assert (k' = k) as ->. { destruct D as (_ & _ & _ & _ & _ & _ & D). apply (proj1 (NoDup_nth_error month_names) month_names_nodup); [apply nth_error_Some; rewrite K'; discriminate | rewrite K', K; reflexivity]. }
  pose proof (zone_text_fun _ _ _ Z' Zl) as El'. rewrite El' in *. rewrite Km, Ed, Eh, Em, Es, El. split; [|split; [|reflexivity]].
  - destruct D as (_ & _ & _ & _ & _ & _ & k2 & l2 & K2 & Z2 & ->). rewrite (zone_text_fun _ _ _ Z2 Zl).
    assert (k2 = k) as -> by (apply (proj1 (NoDup_nth_error month_names) month_names_nodup); [apply nth_error_Some; rewrite K2; discriminate | rewrite K2, K; reflexivity]). reflexivity.
  - rewrite U. reflexivity.
Qed.

Lemma four_digit_year now d : wf_date d -> length (d_year d) <> 2 -> year_num now (d_year d) = rfc_year_value (d_year d) /\ (0 <= rfc_year_value (d_year d) <= 9999)%Z.
Proof.
  intros (_ & _ & [[L _]|Y] & _) N; [contradiction|]. pose proof (num_bounds _ _ Y) as B. change (Z.pow 10 (Z.of_nat 4)) with 10000%Z in B. destruct Y as [L _]. unfold year_num, rfc_year_value. rewrite L. cbn [Nat.eqb]. split; [reflexivity | lia].
Qed.

Lemma zone_bound v l : zone_text v l -> (Z.abs (loc_offset l) <= 1000000)%Z.
Proof.
  assert (D : forall c, is_dig c -> (0 <= Z.of_N c - 48 <= 9)%Z) by (intros c [A B]; lia).
  intros [|h1 h2 m1 m2 F|h1 h2 m1 m2 F|h1 h2 m1 m2 F|n hours HI]; cbn [loc_offset]; try (lia).
  1-3: pose proof (D _ (Forall_inv F)); pose proof (D _ (Forall_inv (Forall_inv_tail F))); pose proof (D _ (Forall_inv (Forall_inv_tail (Forall_inv_tail F)))); pose proof (D _ (Forall_inv (Forall_inv_tail (Forall_inv_tail (Forall_inv_tail F))))); lia.
  assert (B : (-8 <= hours <= 0)%Z); [|lia]. assert (M : forallb (fun p => (-8 <=? snd p) && (snd p <=? 0))%Z zone_names = true) by reflexivity. rewrite forallb_forall in M. specialize (M _ HI). cbn [snd] in M. lia.
Qed.

(** A date-time of the standard (or one with the package's extensions) that uses none of the forms of
    [date_limits] and no two-digit year is read as the instant and the zone it means. *)
Theorem C69_reads_dates : forall e s m, date_time_means (but anything (O_year :: date_limits)) (decode s) m ->
  exists t, ParseDateTime e s = Ret t None /\ t_unix t = instant m /\ t_zone_offset t = m_offset m.
Proof.
  intros e s m H. destruct (read_with_year _ e s m (fun f F X => proj2 F (or_intror X)) H) as (d & t & T & S & W & D & Y & O & _ & U & Z).
  exists t. split; [exact T|]. split; [|exact Z]. destruct (four_digit_year (now_of e) d W) as [E _]; [intros L; destruct (O L) as [_ A]; apply A; now left|].
  rewrite E, <- Y in U. destruct m. exact U.
Qed.

(** If the date exists, the time shows the numbers that were written. *)
Theorem C69_reads_fields : forall e s m, date_time_means (but anything (O_year :: date_limits)) (decode s) m -> valid_moment m ->
  exists t, ParseDateTime e s = Ret t None /\ t_date t = (m_year m, m_month m, m_day m) /\ t_clock t = (m_hour m, m_minute m, m_second m) /\ t_zone_offset t = m_offset m.
Proof.
  intros e s m H (V & Vh & Vm & Vs). destruct (read_with_year _ e s m (fun f F X => proj2 F (or_intror X)) H) as (d & t & T & S & W & D & Y & O & G & U & Z).
  exists t. split; [exact T|]. destruct (four_digit_year (now_of e) d W) as [E B]; [intros L; destruct (O L) as [_ A]; apply A; now left|].
  rewrite E, <- Y in G. rewrite <- Y in B. destruct (denotes_unix _ _ _ D) as (_ & _ & Zl & _). apply zone_bound in Zl. rewrite G. rewrite <- Z. apply go_date_fields; assumption || lia.
Qed.

Definition with_year (Y : Z) (m : moment) : moment := mkMoment Y (m_month m) (m_day m) (m_hour m) (m_minute m) (m_second m) (m_offset m).

(** With a two-digit year everything but the century is as in the standard; the century is, too, in 2049. *)
Theorem C69_reads_two_digit_years : forall e s m, (2000 <= now_of e <= 2099)%Z -> date_time_means (but anything date_limits) (decode s) m ->
  exists t Y, ParseDateTime e s = Ret t None /\ t_unix t = instant (with_year Y m) /\ t_zone_offset t = m_offset m /\
    (Y = m_year m \/ now_of e - 99 <= Y <= now_of e /\ Y mod 100 = m_year m mod 100)%Z /\ (now_of e = 2049%Z -> Y = m_year m).
Proof.
  intros e s m Hn H. destruct (read_with_year _ e s m (fun f F => proj2 F) H) as (d & t & T & S & W & D & Y & O & _ & U & Z).
  exists t, (year_num (now_of e) (d_year d)). split; [exact T|]. split; [exact U|]. split; [exact Z|].
  destruct (Nat.eq_dec (length (d_year d)) 2) as [L|L].
  - assert (N2 : ndigits 2 (d_year d)) by (destruct W as (_ & _ & [Q|[Q _]] & _); [exact Q | rewrite L in Q; discriminate Q]). pose proof (num_bounds _ _ N2) as B. change (Z.pow 10 (Z.of_nat 2)) with 100%Z in B.
    rewrite Y. unfold year_num, rfc_year_value. rewrite L. cbn [Nat.eqb]. rewrite Z.rem_mod_nonneg by lia.
    destruct (Z.ltb_spec (now_of e mod 100) (num (d_year d))); destruct (Z.leb_spec (num (d_year d)) 49); (split; [right|]); Z.to_euclidean_division_equations; lia.
  - destruct (four_digit_year (now_of e) d W L) as [E _]. rewrite E, Y. split; [now left | reflexivity].
Qed.

(** Exactly the date-times of the syntax have a meaning, and without the forms of [date_limits] they have
    only one. *)
Theorem C69_meaning_exists : forall (on : form -> Prop) x, rfc_date_time on x <-> exists m, date_time_means on x m.
Proof. intros on x. split; [apply date_time_some | intros [m H]; exact (date_time_syntax _ _ _ H)]. Qed.

Theorem C69_meaning_unique : forall x m1 m2, date_time_means (but anything date_limits) x m1 -> date_time_means (but anything date_limits) x m2 -> m1 = m2.
Proof.
  intros x m1 m2 H1 H2. assert (L : forall f, but anything date_limits f -> ~ In f date_limits) by (intros f [_ F]; exact F).
  pose proof (means_bmps _ _ _ L H1) as B. destruct (limits_off _ L) as (L1 & L2 & L3 & L4 & L5).
  destruct (date_time_read _ L1 L2 L3 L4 L5 _ _ H1 B) as (d1 & S1 & W1 & Y1 & _ & (k1 & K1 & M1) & D1 & A1 & A2 & A3 & l1 & Z1 & E1).
  destruct (date_time_read _ L1 L2 L3 L4 L5 _ _ H2 B) as (d2 & S2 & W2 & Y2 & _ & (k2 & K2 & M2) & D2 & B1 & B2 & B3 & l2 & Z2 & E2).
  assert (d1 = d2) as -> by (apply spell_inj; [exact W1 | exact W2 | congruence]). pose proof (zone_text_fun _ _ _ Z1 Z2) as El.
  assert (k1 = k2) as -> by (apply (proj1 (NoDup_nth_error month_names) month_names_nodup); [apply nth_error_Some; rewrite K1; discriminate | rewrite K1, K2; reflexivity]).
  destruct m1 as [a1 a2 a3 a4 a5 a6 a7], m2 as [b1 b2 b3 b4 b5 b6 b7]. cbn [m_year m_month m_day m_hour m_minute m_second m_offset] in *. congruence.
Qed.

(** Concrete texts that meet the hypotheses. *)
Lemma friday (on : form -> Prop) y n : rfc_year on y -> year_means on y n ->
  date_time_means on (bs "Fri, 21 Nov" ++ y ++ bs "09:55:06 -0600") (mkMoment n 11 21 9 55 6 (-21600)).
Proof.
  intros Y N. assert (D : forall c, is_dig c -> DIGIT [c]) by (intros c C; exists c; split; [reflexivity | now apply in_range_spec]).
  assert (D2 : forall a b, is_dig a -> is_dig b -> two DIGIT [a; b]) by (intros; now apply is_two). assert (W : FWS on (bs " ")) by apply space.
  assert (NN : forall a b, is_dig a -> is_dig b -> number_means on [a; b] (num [a; b])) by (intros a b A B; apply number_some; [apply inside_self | repeat constructor; assumption || apply A || apply B]).
  assert (I : forall c, (48 <=? c)%N && (c <=? 57)%N = true -> is_dig c) by (intros c C; apply andb_true_iff in C as [C1 C2]; apply N.leb_le in C1; apply N.leb_le in C2; now split).
  apply (dt_means on (bs "Fri,") (bs " 21 ") (bs "Nov") y (bs "09") (bs "55") (bs ":06") (bs " -0600") []).
  - right. apply (cat_i _ _ (bs "Fri") (bs ",")); [left; apply cat_n; [now left|] | reflexivity]. cbn. tauto.
  - left. apply (cat_i _ _ (bs " ") (bs "21 ")); [now right|]. apply (cat_i _ _ (bs "21") (bs " ")); [|exact W]. apply (cat_i _ _ (bs "2") (bs "1")); [apply D, I; reflexivity | right; apply D, I; reflexivity].
  - apply (number_some on (bs " 21 ") (bs "21")); [apply (inside_i on (bs " ") (bs "21") (bs " ")); now apply cfws_fws | repeat constructor; discriminate].
  - exists 10. split; reflexivity.
  - exact Y.
  - exact N.
  - left. apply D2; apply I; reflexivity.
  - apply NN; apply I; reflexivity.
  - left. apply D2; apply I; reflexivity.
  - apply NN; apply I; reflexivity.
  - apply (sm_some on (bs "06") 6); [left; apply D2; apply I; reflexivity | apply NN; apply I; reflexivity].
  - apply (zm_west on (bs " ") (bs "06") (bs "00")); [exact W | |]; apply D2; apply I; reflexivity.
  - now left.
Qed.

Example C69_met : date_time_means (but anything (O_year :: date_limits)) (decode (bs "Fri, 21 Nov 1997 09:55:06 -0600")) (mkMoment 1997 11 21 9 55 6 (-21600)) /\
  valid_moment (mkMoment 1997 11 21 9 55 6 (-21600)).
Proof.
  split; [|repeat split; cbn; lia]. apply (friday _ (bs " 1997 ") 1997); [apply year_1997|]. exists (bs "1997").
  split; [apply (inside_i _ (bs " ") (bs "1997") (bs " ")); apply cfws_fws, space|]. split; [repeat constructor; discriminate | reflexivity].
Qed.

Example C69_two_digits_met : date_time_means (but anything date_limits) (decode (bs "Fri, 21 Nov 97 09:55:06 -0600")) (mkMoment 1997 11 21 9 55 6 (-21600)).
Proof.
  apply (friday _ (bs " 97 ") 1997).
  - right. right. left. split; [split; [exact I | cbn; intuition discriminate]|]. apply (cat_i _ _ (bs " ") (bs "97 ")); [apply cfws_fws, space|]. apply (cat_i _ _ (bs "97") (bs " ")); [apply is_two; split; discriminate | apply cfws_fws, space].
  - exists (bs "97"). split; [apply (inside_i _ (bs " ") (bs "97") (bs " ")); apply cfws_fws, space|]. split; [repeat constructor; discriminate | reflexivity].
Qed.
