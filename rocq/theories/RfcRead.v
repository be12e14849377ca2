(** Texts with a meaning in RFC 5322 (RfcMeaning.v) are texts with that meaning in AddrText.v. *)
From Coq Require Import String List NArith ZArith Bool Arith Lia.
From Verif Require Import Lexer Grammar Utf8 Strs Mime GoTime Parser Walker Api Spec ParserFacts
  WalkerFacts Static Total Cfws LangFacts LexFacts Utf8Facts First DateSpec AddrSpec Chosen AddrSem CharFacts PropApi PropInv
  ScanSpec AddrText MboxList TextLang EncText PropStable PropSize AcceptText AcceptFacts PropAccept Rfc5322 RfcFacts RfcMeaning.
Import ListNotations.

(** ** Parts of a text *)
Definition good : list rune -> Prop := no_intro.

Lemma good_part a b c : good (a ++ b ++ c) -> good b.
Proof. apply intro_part. Qed.

Lemma good_left a b : good (a ++ b) -> good a.
Proof. intros H. apply (good_part [] a b). exact H. Qed.

Lemma good_right a b : good (a ++ b) -> good b.
Proof. intros H. apply (good_part a b []). now rewrite app_nil_r. Qed.

(** ** Gaps next to each other *)
Lemma long_app x y : long_gap x -> long_gap y -> long_gap (x ++ y).
Proof. induction 1 as [|g x G H IH]; intros Y; [exact Y|]. rewrite <- app_assoc. apply lg_more; auto. Qed.

Lemma two_gaps a b : ogap a -> ogap b -> wgap false (a ++ b).
Proof. intros A B. right. split; [reflexivity|]. apply long_app; now apply gap_long. Qed.

Lemma more_gap a b : ogap a -> wgap false b -> wgap false (a ++ b).
Proof. intros A [B|[_ B]]; [now apply two_gaps|]. right. split; [reflexivity|]. now apply lg_more. Qed.

Section read.
  Variables (on : form -> Prop) (at_ : place -> Prop).
  Hypothesis no_fws : ~ on O_FWS.
  Hypothesis no_high : ~ on U_high_characters.
  Hypothesis no_domain : ~ on O_domain.
  Hypothesis no_dtext : ~ on O_dtext.
  Hypothesis no_place : forall p, ~ at_ p.
  Variable rd : charset_reader.

  Lemma gap_in g : rgap on g -> ogap g.
  Proof. apply (ocfws_in on no_fws no_high). Qed.

  (** ** Quoted strings and literals *)
  Lemma unfolded_blanks u : blanks u -> unfolded u = u.
  Proof.
    induction 1 as [|r u Hr H IH]; [reflexivity|]. unfold unfolded in *. cbn [filter]. unfold blank_char in Hr. apply orb_true_iff in Hr as [E|E]; apply N.eqb_eq in E; subst r; cbn; now rewrite IH.
  Qed.

  Lemma inner_in p u : inner on at_ p u -> optional fold u /\ unfolded u = u.
  Proof.
    intros [U L]. apply (ofws_in on no_fws) in U. split; [exact U|]. revert L. destruct U as [->|[a N B|a b A N B]]; intros L; [reflexivity | now apply unfolded_blanks|].
    exfalso. apply (no_place p), L. apply in_app_iff. right. now left.
  Qed.

  Lemma vanish_obs r : vanishes r = true -> obs_qp (bs "\" ++ [r]).
  Proof.
    intros H. exists (bs "\"), [r]. split; [reflexivity|]. split; [reflexivity|].
    assert (K : (r = 0 \/ 1 <= r <= 8 \/ r = 10 \/ r = 11 \/ r = 12 \/ r = 13 \/ 14 <= r <= 31 \/ r = 127)%N).
    { unfold vanishes in H. apply orb_true_iff in H as [H|H]; [|apply N.eqb_eq in H; lia]. apply andb_true_iff in H as [A B]. apply N.leb_le in A. apply negb_true_iff, N.eqb_neq in B. lia. }
    assert (ONE : forall p : rune -> bool, p r = true -> one p [r]) by (intros p P; exists r; auto).
    unfold obs_NO_WS_CTL, either.
    destruct K as [K|[K|[K|[K|[K|[K|[K|K]]]]]]]; [left | right; left; left | right; right; left | right; left; right; left | right; left; right; right; left | right; right; right | right; left; right; right; right; left | right; left; right; right; right; right]; apply ONE; first [apply in_range_spec; lia | apply N.eqb_eq; lia].
  Qed.

  Lemma quoted_body_in b v : quoted_means on at_ b v -> quoted_body b v.
  Proof.
    intros H. induction H as [u U N|u c b v U C H IH|u c b v U C O H IH].
    - apply inner_in in U as [U ->]. assert (u = []) as -> by (destruct u; [reflexivity | exfalso; apply (no_place Blank_before_quote), N; discriminate]). apply qb_end. now left.
    - apply inner_in in U as [U ->]. apply (qtext_in on no_high) in C as (r & -> & R). now apply qb_char.
    - apply inner_in in U as [U ->]. apply (pair_in on no_high) in C as (r & E & R). injection E as ->.
      assert (V : vanishes r = false) by (apply not_true_is_false; intros V; apply (no_place Escaped_control), O; now apply vanish_obs).
      pose proof (qb_pair u r b v U R IH) as Q. rewrite V in Q. exact Q.
  Qed.

  Lemma literal_body_in b v : literal_means on at_ b v -> literal_body b /\ v = b.
  Proof.
    intros H. induction H as [u U|u c b v U C H [IH ->]].
    - apply inner_in in U as [U ->]. split; [now apply lb_end | reflexivity].
    - apply inner_in in U as [U ->]. apply (dtext_in on no_high no_dtext) in C as (r & -> & R). split; [now apply lb_char | reflexivity].
  Qed.

  (** ** Words *)
  Definition plain_item (i : item) : Prop := (exists a, i = IAtom a) \/ (exists q t, i = IQuoted q t).

  Lemma word_item x v : word_means on at_ x v -> good x -> exists g i g', x = g ++ item_text i ++ g' /\ ogap g /\ ogap g' /\ item_ok false i /\ plain_item i /\ item_value rd i = encode v /\
    (forall a, i = IAtom a -> some (atext on) a).
  Proof.
    intros [[g a g' G A G']|[g b t g' G B G']] X.
    - exists g, (IAtom a), g'. split; [reflexivity|]. split; [now apply gap_in|]. split; [now apply gap_in|]. split; [|split; [left; eauto | split; [reflexivity | now intros a' [= <-]]]].
      split; [now apply (atom_text_in on no_high) | now apply good_part in X].
    - exists g, (IQuoted (bs """" ++ b ++ bs """") t), g'. split; [reflexivity|]. split; [now apply gap_in|]. split; [now apply gap_in|]. split; [|split; [right; eauto | split; [reflexivity | intros a' [=]]]].
      exists b. split; [reflexivity | now apply quoted_body_in].
  Qed.

  (** ** Names *)
  Definition values (l : list (list rune * item)) : list gostring := map (fun p => item_value rd (snd p)) l.

  Lemma join_flat (sep : gostring) v vs : join sep (v :: vs) = v ++ flat_map (fun w => sep ++ w) vs.
  Proof.
    revert v. induction vs as [|w vs IH]; intros v; [symmetry; apply app_nil_r|]. change (join sep (v :: w :: vs)) with (v ++ sep ++ join sep (w :: vs)). rewrite IH. cbn [flat_map]. now rewrite <- !app_assoc.
  Qed.

  Lemma plain_joins i j : plain_item i -> plain_item j -> joins (Some i) j = false.
  Proof. intros [[a ->]|(q & t & ->)] [[b ->]|(q' & t' & ->)]; reflexivity. Qed.

  Lemma name_from_plain l : Forall (fun p => plain_item (snd p)) l -> forall n i, n <> [] -> plain_item i ->
    name_from rd n (Some i) l = n ++ flat_map (fun w => bs " " ++ w) (values l).
  Proof.
    induction 1 as [|[g j] l J F IH]; intros n i N P; [symmetry; apply app_nil_r|]. cbn [name_from snd] in *. rewrite (plain_joins i j P J). destruct n as [|c n]; [congruence|].
    rewrite IH; [|discriminate | exact J]. cbn [values map flat_map snd]. rewrite <- !app_assoc. reflexivity.
  Qed.

  Lemma name_value_plain l v vs : Forall (fun p => plain_item (snd p)) l -> values l = v :: vs -> (v = [] -> vs = []) -> name_value rd l = join (bs " ") (v :: vs).
  Proof.
    intros F E N. destruct l as [|[g i] l]; [discriminate E|]. cbn [values map snd] in E. injection E as E1 E2. rewrite join_flat. unfold name_value. cbn [name_from joins app]. rewrite E1.
    inversion F as [|? ? P F']; subst. cbn [snd] in P. destruct (item_value rd i) as [|c w] eqn:V.
    - specialize (N eq_refl). destruct l; [reflexivity | discriminate N].
    - rewrite name_from_plain; [reflexivity | exact F' | discriminate | exact P].
  Qed.

  Lemma encode_spaced n : encode (spaced n) = join (bs " ") (map encode n).
  Proof.
    unfold spaced. induction n as [|v n IH]; [reflexivity|]. destruct n as [|w n]; [reflexivity|]. change (join (bs " ") (v :: w :: n)) with (v ++ bs " " ++ join (bs " ") (w :: n)).
    rewrite !encode_app, IH. reflexivity.
  Qed.

  Lemma phrase_name x n : phrase_means on at_ x n -> good x -> exists l g, x = name_text l ++ g /\ ogap g /\ name_ok false l /\ Forall (fun p => plain_item (snd p)) l /\ values l = map encode n /\
    (forall a, option_map snd (hd_error l) = Some (IAtom a) -> some (atext on) a).
  Proof.
    intros H. induction H as [x v W|x v y n W H IH U]; intros X.
    - destruct (word_item _ _ W X) as (g & i & g' & -> & G & G' & I & P & V & A). exists [(g, i)], g'. split; [cbn [name_text flat_map]; now rewrite app_nil_r, <- app_assoc|].
      split; [exact G'|]. split; [|split; [constructor; [exact P | constructor] | split; [cbn; now rewrite V | intros a [= E]; now apply A]]].
      split; [split; [destruct P as [[a ->]|(q & t & ->)]; reflexivity | exact G]|]. cbn [items_ok]. split; [left; exact G|]. split; [exact I|]. split; [discriminate | exact Logic.I].
    - destruct (IH (good_right _ _ X)) as (l & h & -> & Hh & [NM NO] & F & VL & AL). clear IH. destruct (word_item _ _ W (good_left _ _ X)) as (g & i & g' & -> & G & G' & I & P & V & A).
      destruct l as [|[g0 i0] l]; [destruct NM|]. exists ((g, i) :: (g' ++ g0, i0) :: l), h.
      split; [cbn [name_text flat_map]; fold (name_text l); now rewrite <- !app_assoc|]. split; [exact Hh|]. cbn [items_ok] in NO. destruct NO as (G0 & I0 & _ & NO).
      assert (P0 : plain_item i0) by (inversion F; auto).
      assert (GG : wgap false (g' ++ g0)) by (apply more_gap; auto).
      split; [|split; [constructor; [exact P | inversion F; now constructor] | split; [cbn [values map snd]; rewrite V; unfold values in VL; cbn [map snd] in VL; now rewrite VL | intros a [= E]; now apply A]]].
      split; [split; [destruct P as [[a ->]|(q & t & ->)]; reflexivity | exact G]|]. cbn [items_ok]. split; [left; exact G|]. split; [exact I|]. split; [discriminate|]. split; [exact GG|]. split; [exact I0|]. split; [|exact NO].
      intros R R0 E. apply app_eq_nil in E as [-> ->]. destruct P as [[a ->]|(q & t & ->)]; [|discriminate R]. destruct P0 as [[a0 ->]|(q & t & ->)]; [|discriminate R0].
      specialize (A a eq_refl). specialize (AL a0 eq_refl). destruct AL as (b & q & -> & B & _).
      assert (L : exists p c, a = p ++ c /\ atext on c).
      { destruct A as (u & w & -> & AU & AW). clear - AU AW. revert u AU. induction AW as [|z w AZ AW IH]; intros u AU; [exists [], u; now rewrite app_nil_r|]. destruct (IH z AZ) as (p & c & E & C). exists (u ++ p), c. rewrite E, <- app_assoc. auto. }
      destruct L as (p & c & -> & C). apply (U (g ++ p) c b (q ++ name_text l ++ h)); auto.
      + cbn [item_text]. now rewrite app_nil_r, <- app_assoc.
      + cbn [name_text flat_map item_text app]. fold (name_text l). now rewrite <- !app_assoc.
  Qed.

  (** ** Addresses *)
  Lemma dotted_words x v : dotted_means (word_means on at_) x v -> good x -> words_m rd false x (encode v).
  Proof.
    intros H. induction H as [x v W|x v y w W H IH]; intros X.
    - destruct (word_item _ _ W X) as (g & i & g' & -> & G & G' & I & P & V & _). rewrite <- V. now apply wm_one.
    - destruct (word_item _ _ W (good_left _ _ X)) as (g & i & g' & -> & G & G' & I & P & V & _). rewrite !encode_app, <- V, <- !app_assoc.
      apply wm_more; auto. apply IH. apply good_right in X. now apply good_right in X.
  Qed.

  Lemma local_in_m x v : local_means on at_ x v -> good x -> local_m rd false x (encode v).
  Proof.
    intros [y w [g a g' G A G']|y w Q|y w _ D] X.
    - apply lm_dot; [now apply gap_in | now apply (dot_text_in on no_high) | now apply good_part in X | now apply gap_in].
    - apply lm_words. apply dotted_words; [apply dm_one; now right | exact X].
    - apply lm_words. now apply dotted_words.
  Qed.

  Lemma domain_in_m x v : domain_means on at_ x v -> good x -> exists g g', x = g ++ v ++ g' /\ ogap g /\ domain_m v /\ ogap g'.
  Proof.
    intros [y w [g a g' G A G']|g b w g' G L G'|y w D _] X.
    - exists g, g'. split; [reflexivity|]. split; [now apply gap_in|]. split; [|now apply gap_in]. apply AddrText.dm_dot; [now apply (dot_text_in on no_high) | now apply good_part in X].
    - apply literal_body_in in L as [L ->]. exists g, g'. split; [reflexivity|]. split; [now apply gap_in|]. split; [now apply dm_literal | now apply gap_in].
    - exfalso. exact (no_domain D).
  Qed.

  Lemma spec_in_m x l d : spec_means on at_ x l d -> good x -> spec_m rd false x (encode (l ++ bs "@" ++ d)).
  Proof.
    intros [y l' z d' L D] X. destruct (domain_in_m _ _ D) as (g & g' & -> & G & M & G'); [apply good_right in X; now apply good_right in X|]. rewrite !encode_app.
    apply (sm_plain rd false y (encode l') g d' g'); auto. apply local_in_m; auto. now apply good_left in X.
  Qed.

  (** ** Routes *)
  Lemma plain_domain_in z : domain on z -> good z -> exists g d g', z = g ++ d ++ g' /\ ogap g /\ domain_m d /\ ogap g'.
  Proof.
    intros [D|[D|[D _]]] X; [| |contradiction].
    - destruct D as (g & y & -> & G & a & g' & -> & A & G'). exists g, a, g'. split; [reflexivity|]. split; [now apply gap_in|]. split; [|now apply gap_in].
      apply AddrText.dm_dot; [now apply (dot_text_in on no_high) | now apply good_part in X].
    - apply (literal_in on no_fws no_high no_dtext) in D. destruct D as (g & y & -> & G & a & g' & -> & (q1 & y0 & -> & Q1 & b & q2 & -> & B & Q2) & G'). unfold lit in Q1, Q2. subst q1 q2. exists g, (bs "[" ++ b ++ bs "]"), g'. split; [reflexivity|]. split; [exact G|]. split; [now apply dm_literal | exact G'].
  Qed.

  Definition rest_entry : texts := cat (lit ",") (cat (optional (CFWS on)) (optional (cat (lit "@") (domain on)))).

  Lemma route_tail t : many rest_entry t -> good t -> route_end (t ++ bs ":") \/ exists g r, t ++ bs ":" = bs "," ++ g ++ r /\ ogap g /\ route_m r.
  Proof.
    intros H. induction H as [|y t (q1 & y' & -> & Q1 & c & o & -> & C & O) H IH]; intros X; [left; apply re_colon|]. unfold lit in Q1. subst q1.
    specialize (IH (good_right _ _ X)). apply gap_in in C. destruct O as [->|(q2 & z & -> & Q2 & D)].
    - rewrite app_nil_r in *. replace ((bs "," ++ c) ++ t) with (bs "," ++ c ++ t) by (now rewrite <- app_assoc). rewrite <- !app_assoc. destruct IH as [IH|(g & r & E & G & R)]; [left; now apply re_empty|].
      right. exists c, (bs "," ++ g ++ r). split; [now rewrite E|]. split; [exact C | now apply ro_empty].
    - unfold lit in Q2. subst q2. destruct (plain_domain_in z D) as (g & d & g' & -> & G & Dd & G'); [apply good_left in X; apply good_right in X; apply good_right in X; now apply good_right in X|].
      right. exists c, (bs "@" ++ g ++ d ++ g' ++ t ++ bs ":"). split; [now rewrite <- !app_assoc|]. split; [exact C|]. destruct IH as [IH|(h & r & E & Gh & R)]; [now apply ro_last|]. rewrite E. now apply ro_more.
  Qed.

  Lemma route_lead p : many (either (CFWS on) (lit ",")) p -> forall r, route_m r -> good (p ++ r) -> exists g r', p ++ r = g ++ r' /\ wgap false g /\ led_route false r'.
  Proof.
    intros P. induction P as [|c p C P IH]; intros r R X; [exists [], r; split; [reflexivity|]; split; [left; apply ogap_nil | now apply le_route]|].
    rewrite <- app_assoc in *. destruct (IH r R (good_right _ _ X)) as (g & r' & E & G & R'). rewrite E in *. destruct C as [C|C].
    - exists (c ++ g), r'. split; [now rewrite app_assoc|]. split; [|exact R']. apply more_gap; [apply gap_in; now right | exact G].
    - unfold lit in C. subst c. exists [], (bs "," ++ g ++ r'). split; [reflexivity|]. split; [left; apply ogap_nil | now apply le_empty].
  Qed.

  Lemma route_in_m r : obs_route on r -> good r -> exists g r', r = g ++ r' /\ wgap false g /\ led_route false r'.
  Proof.
    intros (q & q1 & -> & (p & q2 & -> & P & q3 & y & -> & Q3 & z & t & -> & D & T) & Q1) X. unfold lit in Q1, Q3. subst q1 q3.
    destruct (plain_domain_in z D) as (g & d & g' & -> & G & Dd & G'); [apply good_left in X; apply good_right in X; apply good_right in X; now apply good_left in X|].
    assert (GT : good t) by (apply good_left in X; apply good_right in X; apply good_right in X; now apply good_right in X).
    assert (R : route_m (bs "@" ++ g ++ d ++ g' ++ t ++ bs ":")).
    { destruct (route_tail t T GT) as [E|(h & r & E & Gh & R)]; [now apply ro_last | rewrite E; now apply ro_more]. }
    assert (E : (p ++ bs "@" ++ (g ++ d ++ g') ++ t) ++ bs ":" = p ++ (bs "@" ++ g ++ d ++ g' ++ t ++ bs ":")) by (now rewrite <- !app_assoc). destruct (route_lead p P _ R (eq_ind _ good X _ E)) as (h & r1 & E1 & H1 & R1). exists h, r1. split; [exact (eq_trans E E1) | auto].
  Qed.

  (** ** Mailboxes *)
  Lemma angle_in_m x l d : angle_means on at_ x l d -> good x -> exists g y g', x = g ++ y ++ g' /\ ogap g /\ angle_m rd false y (encode (l ++ bs "@" ++ d)) /\ ogap g'.
  Proof.
    intros [g y l' d' g' G S G'|g r y l' d' g' _ G R S G'] X.
    - exists g, (bs "<" ++ y ++ bs ">"), g'. split; [reflexivity|]. split; [now apply gap_in|]. split; [|now apply gap_in]. apply am_spec, spec_in_m; auto. apply good_part in X. now apply good_part in X.
    - assert (X1 : good (r ++ y)) by (apply good_part in X; apply (good_part (bs "<") (r ++ y) (bs ">")); now rewrite <- !app_assoc in *).
      destruct (route_in_m r R (good_left _ _ X1)) as (h & r' & -> & Hh & R').
      exists g, (bs "<" ++ (h ++ r') ++ y ++ bs ">"), g'. split; [reflexivity|]. split; [now apply gap_in|]. split; [|now apply gap_in]. rewrite <- (app_assoc h). apply am_route; auto. apply spec_in_m; auto. now apply good_right in X1.
  Qed.

  Lemma mailbox_in_m x m : mailbox_means on at_ x m -> good x -> mailbox_m rd false x (box_address m).
  Proof.
    intros [y l d S|y l d A|y n z l d P N A] X.
    - apply (mm_spec rd false y). now apply spec_in_m.
    - destruct (angle_in_m _ _ _ A X) as (g & a & g' & -> & G & M & G'). now apply (mm_angle rd false g a).
    - destruct (phrase_name _ _ P (good_left _ _ X)) as (ln & h & -> & H & NO & F & V & _). destruct (angle_in_m _ _ _ A (good_right _ _ X)) as (g & a & g' & -> & G & M & G').
      assert (E : name_value rd ln = encode (spaced n)).
      { rewrite encode_spaced, <- V. destruct (values ln) as [|v vs] eqn:W; [destruct ln; [destruct NO as [[] _] | discriminate W]|]. apply name_value_plain; auto. intros ->. destruct n as [|w n]; [discriminate V|]. cbn [map] in V. injection V as V1 V2.
        destruct n as [|w' n]; [symmetry in V2; now destruct vs|]. destruct w as [|c w]; [exfalso; exact (no_place _ (N _ _ eq_refl))|]. exfalso. clear - V1. cbn in V1. symmetry in V1. apply app_eq_nil in V1 as [V1 _]. now apply encode1_nonempty in V1. }
      unfold box_address. cbn [b_name b_local b_domain]. rewrite <- E. rewrite <- !app_assoc, app_assoc. rewrite <- app_assoc. rewrite (app_assoc h g). apply (mm_named rd false ln (h ++ g) a); auto. now apply two_gaps.
  Qed.

  (** ** Lists *)
  Lemma entries_in_m f (P : list rune -> list box -> Prop) (Q : list rune -> list addr -> Prop) : (forall x l, P x l -> good x -> Q x (map box_address l)) ->
    forall b x l, entries_mean on f P b x l -> good x -> sparse Q b x (map box_address l).
  Proof.
    intros H b x l E. induction E as [x l A|x l b y l' A E IH|x F G|x b y l F G E IH]; intros X.
    - apply sp_one. now apply H.
    - rewrite map_app. apply (sp_more Q x (map box_address l) b y (map box_address l')); [apply H; [exact A | now apply good_left in X]|]. apply IH. apply good_right in X. now apply good_right in X.
    - apply sp_none. now apply gap_in.
    - apply sp_skip; [now apply gap_in|]. apply IH. apply good_right in X. now apply good_right in X.
  Qed.

  Lemma one_in_m x l : one_box on at_ x l -> good x -> one_mailbox rd false x (map box_address l).
  Proof. intros (m & M & ->) X. exists (box_address m). split; [now apply mailbox_in_m | reflexivity]. Qed.

  Lemma group_in_m x l : group_means on at_ x l -> good x -> group_m rd false x (map box_address l).
  Proof.
    intros [y n z l' g P L G] X. destruct (phrase_name _ _ P (good_left _ _ X)) as (ln & h & -> & H & NO & _).
    assert (Z : good z) by (apply good_right in X; apply good_right in X; now apply good_left in X).
    assert (S : exists b, sparse (one_mailbox rd false) b z (map box_address l')).
    { destruct L as [z l' L|z L|z L]; [exists true | exists false | exists false].
      - exact (entries_in_m _ _ _ one_in_m _ _ _ L Z).
      - apply sp_none. now apply gap_in.
      - exact (entries_in_m _ _ _ one_in_m _ _ _ L Z). }
    destruct S as [b S]. rewrite <- app_assoc. apply (gm rd false ln h b z (map box_address l') (bs ";") g); auto; [now left | now apply gap_in | discriminate].
  Qed.

  Lemma address_in_m x l : address_means on at_ x l -> good x -> address_m rd false x (map box_address l).
  Proof. intros [H|H] X; [left; now apply one_in_m | right; now apply group_in_m]. Qed.

  Lemma address_list_in_m x l : address_list_means on at_ x l -> good x -> sparse (address_m rd false) true x (map box_address l).
  Proof. intros H X. exact (entries_in_m _ _ _ address_in_m _ _ _ H X). Qed.

  (** mailboxes without empty entries *)
  Lemma mailboxes_in_m x l : ~ on O_mbox_list -> mailbox_list_means on at_ x l -> good x -> mailboxes_m rd false x (map box_address l).
  Proof.
    intros N H. unfold mailbox_list_means in H. assert (B : true = true) by reflexivity. revert B. generalize true at 1 as b. intros b B. subst b. revert H. generalize true. intros b H.
    induction H as [x l (m & M & ->)|x l b y l' (m & M & ->) E IH|x F G|x b y l F G E IH]; intros X; [| |contradiction|contradiction].
    - apply ms_one. now apply mailbox_in_m.
    - apply (ms_more rd false x (box_address m) 44%N y); [apply mailbox_in_m; auto; now apply good_left in X | now left|]. apply IH. apply good_right in X. now apply good_right in X.
  Qed.

End read.
