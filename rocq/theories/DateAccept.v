(** Every well-formed date-time text, written in the usual way, is accepted and stands for the
    time it denotes. *)
From Coq Require Import String List NArith ZArith Bool Arith Lia.
From Verif Require Import Lexer Grammar Utf8 Utf8Facts Strs Mime GoTime Parser Walker Api Spec ParserFacts
  WalkerFacts Static Total Cfws DateSpec LexFacts LangFacts Dates DateText.
Import ListNotations.

(** ** Texts that strip to themselves *)
Definition plain (c : rune) : Prop := rkind c <> KWs /\ rkind c <> KOpen.

Lemma strip_plain a b : Forall plain a -> strip 0 (a ++ b) = a ++ strip 0 b.
Proof.
  induction 1 as [|c a [H1 H2] H IH]; [reflexivity|]. cbn [app]. rewrite strip_step.
  destruct (rkind c); try congruence; now rewrite IH.
Qed.

Lemma rkind_other c : (c <> 32 -> c <> 9 -> c <> 13 -> c <> 10 -> c <> 40 -> plain c)%N.
Proof.
  intros. unfold plain, rkind.
  repeat match goal with H : c <> ?k |- _ => apply N.eqb_neq in H; rewrite H; clear H end. cbn.
  destruct (c =? 41)%N; [split; discriminate|]. destruct (c =? 92)%N; split; discriminate.
Qed.

Lemma plain_digit c : is_dig c -> plain c.
Proof. unfold is_dig. intros H. apply rkind_other; lia. Qed.

Lemma plain_letter c : letter c -> plain c.
Proof.
  intros H. unfold letter, lower_byte, in_range in H. apply rkind_other; intros ->; cbn in H; lia.
Qed.

Lemma plains_digit l : Forall is_dig l -> Forall plain l.
Proof. apply Forall_impl, plain_digit. Qed.
Lemma plains_letter l : Forall letter l -> Forall plain l.
Proof. apply Forall_impl, plain_letter. Qed.
Lemma asciis_digit l : Forall is_dig l -> Forall ascii l.
Proof. apply Forall_impl, digit_ascii. Qed.
Lemma asciis_letter l : Forall letter l -> Forall ascii l.
Proof. apply Forall_impl. exact letter_ascii. Qed.

Lemma strip_space b : strip 0 (bs " " ++ b) = strip 0 b.
Proof. reflexivity. Qed.

(** What a zone text consists of. *)
Lemma zone_plain z l : zone_text z l -> Forall plain z /\ Forall ascii z.
Proof.
  assert (HP : plain 43%N /\ plain 45%N) by (split; apply rkind_other; discriminate).
  intros [|h1 h2 m1 m2 F|h1 h2 m1 m2 F|h1 h2 m1 m2 F|n hours HI].
  - split; constructor.
  - change (bs "+") with [43%N]. cbn [app]. split; (constructor; [tauto || (unfold ascii; lia)|]);
      [now apply plains_digit | now apply asciis_digit].
  - change (bs "-") with [45%N]. cbn [app]. split; (constructor; [tauto || (unfold ascii; lia)|]);
      [now apply plains_digit | now apply asciis_digit].
  - split; [now apply plains_digit | now apply asciis_digit].
  - apply (in_map fst) in HI. pose proof (lower_letters _ _ HI zone_names_letters).
    split; [now apply plains_letter | now apply asciis_letter].
Qed.

Lemma strip_canon d : wf_date d -> strip 0 (canon d) = spell d /\ Forall ascii (canon d) /\ canon d <> [].
Proof.
  destruct d as [w dd mo y h mi s z].
  unfold wf_date, spell, canon. cbn [d_dow d_day d_mon d_year d_hour d_min d_sec d_zone].
  intros (W & D & Y & H & M & S & MO & l & Z).
  assert (FD : Forall is_dig dd) by (destruct D as [D|D]; eapply ndigits_all; eassumption).
  assert (FY : Forall is_dig y) by (destruct Y as [D0|D0]; eapply ndigits_all; eassumption).
  assert (FH : Forall is_dig h) by (destruct H as [D0|D0]; eapply ndigits_all; eassumption).
  assert (FM : Forall is_dig mi) by (eapply ndigits_all; eassumption).
  assert (FS : Forall is_dig s) by (destruct S as [->|D0]; [constructor | eapply ndigits_all; eassumption]).
  assert (FMO : Forall letter mo) by (eapply lower_letters; [eassumption | apply month_names_letters]).
  assert (FW : Forall letter w).
  { destruct W as [->|W]; [constructor|]. eapply lower_letters; [eassumption | apply day_names_letters]. }
  destruct (zone_plain z l Z) as [ZP ZA].
  assert (PC : plain 58%N /\ plain 44%N) by (split; apply rkind_other; discriminate).
  split; [|split].
  - assert (E1 : forall b, strip 0 ((match w with [] => [] | r :: l => (r :: l) ++ bs ", " end) ++ b) =
                 (match w with [] => [] | r :: l => (r :: l) ++ bs "," end) ++ strip 0 b).
    { intros b. destruct w as [|a w]; [reflexivity|]. change (bs ", ") with (bs "," ++ bs " ").
      rewrite <- !app_assoc, strip_plain by now apply plains_letter.
      rewrite (strip_plain (bs ",")) by (constructor; [tauto | constructor]).
      rewrite strip_space. reflexivity. }
    rewrite E1. f_equal. rewrite strip_plain by now apply plains_digit. f_equal.
    rewrite strip_space, strip_plain by now apply plains_letter. f_equal.
    rewrite strip_space, strip_plain by now apply plains_digit. f_equal.
    rewrite strip_space, strip_plain by now apply plains_digit. f_equal.
    rewrite strip_plain by (constructor; [tauto | constructor]). f_equal.
    rewrite strip_plain by now apply plains_digit. f_equal.
    rewrite strip_plain.
    2:{ destruct s; [constructor|]. constructor; [tauto|]. now apply plains_digit. }
    f_equal. destruct z as [|a z]; [reflexivity|]. rewrite strip_space, <- (app_nil_r (a :: z)) at 1.
    rewrite strip_plain by assumption. cbn. now rewrite app_nil_r.
  - assert (A1 : Forall ascii (bs " ")) by (repeat constructor).
    assert (A2 : Forall ascii (bs ":")) by (repeat constructor).
    assert (A3 : Forall ascii (bs ", ")) by (repeat constructor).
    repeat (apply Forall_app; split); auto using asciis_digit, asciis_letter.
    + destruct w; [constructor|]. apply Forall_app. split; auto using asciis_letter.
    + destruct s; [constructor|]. apply Forall_app. split; auto using asciis_digit.
    + destruct z; [constructor|]. apply Forall_app. auto.
  - intros E. apply (f_equal (@length _)) in E. rewrite !app_length in E. cbn in E. lia.
Qed.

(** ** Sentences *)
Lemma ndigits_cons n l : ndigits (S n) l -> exists c l', l = c :: l' /\ is_dig c /\ ndigits n l'.
Proof.
  intros [HL HF]. destruct HF as [|c l Hc HF]; [discriminate|]. exists c, l. cbn in HL. injection HL as HL. split; [reflexivity|]. split; [exact Hc | now split].
Qed.

Lemma lang_digit c : is_dig c -> lang (Tok T_Digit) [tok_of c].
Proof. intros H. apply lang_cls_i. rewrite tok_of_digit by assumption. now left. Qed.

Lemma lang_names (r : rule) names l : In (to_lower l) names ->
  Forall (Forall (fun c => (97 <= c <= 122)%N)) names ->
  forallb (fun n => accepts 200 [Nt r] (map (fun c => mkTok (c - 52)%N c) n)) names = true ->
  lang (Nt r) (toks l).
Proof.
  intros HI HN HA. apply lang_types with (w' := map (fun c => mkTok (c - 52)%N c) (to_lower l)).
  - pose proof (lower_letters _ _ HI HN) as HL. clear - HL. unfold toks, to_lower. rewrite !map_map.
    apply map_ext_Forall. eapply Forall_impl; [|exact HL]. intros c Hc. cbn. now apply tok_of_letter.
  - rewrite forallb_forall in HA. apply HA in HI. now apply lang_check in HI.
Qed.

Lemma lang_month l : In (to_lower l) month_names -> lang (Nt R_month) (toks l).
Proof. intros H. eapply lang_names; [exact H | apply month_names_letters | vm_compute; reflexivity]. Qed.

Lemma lang_dayName l : In (to_lower l) day_names -> lang (Nt R_dayName) (toks l).
Proof. intros H. eapply lang_names; [exact H | apply day_names_letters | vm_compute; reflexivity]. Qed.

Lemma lang_obsZone l : In (to_lower l) (map fst zone_names) -> lang (Nt R_obsZone) (toks l).
Proof. intros H. eapply lang_names; [exact H | apply zone_names_letters | vm_compute; reflexivity]. Qed.

Definition sp : word := toks (bs " ").

Lemma lang_fws_sp : lang (Nt R_fws) sp.
Proof. apply (lang_check 100). vm_compute. reflexivity. Qed.

Lemma lang_cfws_sp : lang (Nt R_cfws) sp.
Proof. apply (lang_check 100). vm_compute. reflexivity. Qed.

(** one sentence of a sequence from sentences of its parts *)
Lemma lang_seqs gs us : gs <> [] -> Forall2 lang gs us -> lang (seqs gs) (concat us).
Proof.
  intros HN H. induction H as [|g u gs us Hg H IH]; [congruence|].
  destruct gs as [|g' gs].
  - inversion H; subst. cbn. now rewrite app_nil_r.
  - cbn [seqs concat]. apply lang_seq_i; [exact Hg|]. apply IH. discriminate.
Qed.

Lemma lang_seqs_eq gs us w : w = concat us -> gs <> [] -> Forall2 lang gs us -> lang (seqs gs) w.
Proof.
  intros -> HN H. now apply lang_seqs.
Qed.

Lemma canon_lang d : wf_date d -> lang (Nt R_dateTime) (toks (canon d) ++ [eof_tok]).
Proof.
  destruct d as [w dd mo y h mi s z].
  unfold wf_date, canon. cbn [d_dow d_day d_mon d_year d_hour d_min d_sec d_zone].
  intros (W & D & Y & H & M & S & MO & l & Z).
  set (fw := match w with [] => [] | _ :: _ => sp end).
  assert (LW : exists uw, toks (match w with [] => [] | r :: l => (r :: l) ++ bs ", " end) = uw ++ fw /\
                lang (Opt (seqs [Nt R_dayOfweek; Tok T_Comma])) uw).
  { destruct W as [->|W]; [exists []; split; [reflexivity | apply lang_opt_none]|].
    exists (toks w ++ toks (bs ",")). split.
    - assert (w <> []) by (apply dow_len in W; eapply nonempty_len; eassumption).
      destruct w; [congruence|]. unfold fw, sp. rewrite <- app_assoc, <- !toks_app. f_equal.
    - apply lang_opt_some. cbn [seqs]. apply lang_seq_i.
      + apply lang_nt_i. apply lang_altl. cbn [seqs]. change (toks w) with ([] ++ toks w).
        apply lang_seq_i; [apply lang_opt_none | now apply lang_dayName].
      + apply lang_cls_i. now left. }
  destruct LW as [uw [EW LW]].
  assert (LD : lang (Nt R_day) (fw ++ toks dd ++ sp)).
  { apply lang_nt_i, lang_altl.
    assert (LF : lang (Opt (Nt R_fws)) fw).
    { unfold fw. destruct w; [apply lang_opt_none | apply lang_opt_some, lang_fws_sp]. }
    destruct D as [D|D]; apply ndigits_cons in D as [c [dl [-> [Hc D]]]].
    - destruct D as [D _]. destruct dl; [|discriminate].
      eapply (lang_seqs_eq _ [fw; [tok_of c]; []; sp]); [cbn; now rewrite ?app_nil_r | discriminate|].
      repeat constructor; auto using lang_digit, lang_opt_none, lang_fws_sp.
    - apply ndigits_cons in D as [c2 [dl2 [-> [Hc2 D]]]]. destruct D as [D _]. destruct dl2; [|discriminate].
      eapply (lang_seqs_eq _ [fw; [tok_of c]; [tok_of c2]; sp]); [cbn; now rewrite ?app_nil_r | discriminate|].
      repeat constructor; auto using lang_digit, lang_fws_sp. now apply lang_opt_some, lang_digit. }
  assert (LY : lang (Nt R_year) (sp ++ toks y ++ sp)).
  { apply lang_nt_i. destruct Y as [Y|Y].
    - apply lang_altr. apply ndigits_cons in Y as [c1 [y1 [-> [H1 Y]]]].
      apply ndigits_cons in Y as [c2 [y2 [-> [H2 Y]]]]. destruct Y as [Y _]. destruct y2; [|discriminate].
      eapply (lang_seqs_eq _ [sp; [tok_of c1]; [tok_of c2]; sp]); [reflexivity | discriminate|].
      repeat constructor; auto using lang_digit, lang_opt_some, lang_cfws_sp.
    - apply lang_altl. apply ndigits_cons in Y as [c1 [y1 [-> [H1 Y]]]].
      apply ndigits_cons in Y as [c2 [y2 [-> [H2 Y]]]]. apply ndigits_cons in Y as [c3 [y3 [-> [H3 Y]]]].
      apply ndigits_cons in Y as [c4 [y4 [-> [H4 Y]]]]. destruct Y as [Y _]. destruct y4; [|discriminate].
      eapply (lang_seqs_eq _ [sp; [tok_of c1]; [tok_of c2]; [tok_of c3]; [tok_of c4]; sp]); [reflexivity | discriminate|].
      repeat constructor; auto using lang_digit, lang_fws_sp. }
  assert (LH : lang (Nt R_hour) (toks h)).
  { apply lang_nt_i, lang_altl. destruct H as [H|H].
    - apply ndigits_cons in H as [c1 [h1 [-> [H1 H]]]]. destruct H as [H _]. destruct h1; [|discriminate].
      eapply (lang_seqs_eq _ [[]; [tok_of c1]]); [reflexivity | discriminate|].
      repeat constructor; auto using lang_digit, lang_opt_none.
    - apply ndigits_cons in H as [c1 [h1 [-> [H1 H]]]]. apply ndigits_cons in H as [c2 [h2 [-> [H2 H]]]].
      destruct H as [H _]. destruct h2; [|discriminate].
      eapply (lang_seqs_eq _ [[tok_of c1]; [tok_of c2]]); [reflexivity | discriminate|].
      repeat constructor; auto using lang_digit, lang_opt_some. }
  apply ndigits_cons in M as [n1 [mi1 [-> [N1 M]]]]. apply ndigits_cons in M as [n2 [mi2 [-> [N2 M]]]].
  destruct M as [M _]. destruct mi2; [|discriminate]. clear M.
  (* the rest: seconds and zone; a space before an alphabetic zone belongs to the minute or second *)
  assert (LZ : exists pre uz, toks (match z with [] => [] | r :: l => bs " " ++ r :: l end) = pre ++ uz /\
     (pre = [] \/ pre = sp) /\ lang (Opt (Nt R_zone)) uz).
  { destruct Z as [|h1 h2 m1 m2 F|h1 h2 m1 m2 F|h1 h2 m1 m2 F|n hours HI].
    - exists [], []. split; [reflexivity|]. split; [auto | apply lang_opt_none].
    - exists [], (sp ++ toks (bs "+" ++ [h1; h2; m1; m2])). split; [cbn [app bs]; reflexivity|].
      split; [auto|]. apply lang_opt_some, lang_nt_i, lang_altl. cbn [seqs].
      apply lang_seq_i; [apply lang_fws_sp|]. apply lang_nt_i.
      inversion F as [|? ? F1 F']; subst. inversion F' as [|? ? F2 F'']; subst.
      inversion F'' as [|? ? F3 F3']; subst. inversion F3' as [|? ? F4 ?]; subst.
      eapply (lang_seqs_eq _ [toks (bs "+"); [tok_of h1]; [tok_of h2]; [tok_of m1]; [tok_of m2]]);
        [reflexivity | discriminate|].
      repeat constructor; auto using lang_digit. apply lang_opt_some, lang_cls_i. now left.
    - exists [], (sp ++ toks (bs "-" ++ [h1; h2; m1; m2])). split; [cbn [app bs]; reflexivity|].
      split; [auto|]. apply lang_opt_some, lang_nt_i, lang_altl. cbn [seqs].
      apply lang_seq_i; [apply lang_fws_sp|]. apply lang_nt_i.
      inversion F as [|? ? F1 F']; subst. inversion F' as [|? ? F2 F'']; subst.
      inversion F'' as [|? ? F3 F3']; subst. inversion F3' as [|? ? F4 ?]; subst.
      eapply (lang_seqs_eq _ [toks (bs "-"); [tok_of h1]; [tok_of h2]; [tok_of m1]; [tok_of m2]]);
        [reflexivity | discriminate|].
      repeat constructor; auto using lang_digit. apply lang_opt_some, lang_cls_i. right. now left.
    - exists [], (sp ++ toks [h1; h2; m1; m2]). split; [reflexivity|].
      split; [auto|]. apply lang_opt_some, lang_nt_i, lang_altl. cbn [seqs].
      apply lang_seq_i; [apply lang_fws_sp|]. apply lang_nt_i.
      inversion F as [|? ? F1 F']; subst. inversion F' as [|? ? F2 F'']; subst.
      inversion F'' as [|? ? F3 F3']; subst. inversion F3' as [|? ? F4 ?]; subst.
      eapply (lang_seqs_eq _ [[]; [tok_of h1]; [tok_of h2]; [tok_of m1]; [tok_of m2]]);
        [reflexivity | discriminate|].
      repeat constructor; auto using lang_digit, lang_opt_none.
    - apply (in_map fst) in HI. cbn [fst] in HI. exists sp, (toks n). split.
      + destruct n; [exfalso; revert HI; vm_compute; intuition discriminate | reflexivity].
      + split; [auto|]. apply lang_opt_some, lang_nt_i, lang_altr. now apply lang_obsZone. }
  destruct LZ as (pre & uz & EZ & HP & LZ).
  assert (LP : lang (Opt (Nt R_cfws)) pre).
  { destruct HP as [-> | ->]; [apply lang_opt_none | apply lang_opt_some, lang_cfws_sp]. }
  assert (LN : lang (Nt R_minute) (toks [n1; n2] ++ pre) /\ lang (Nt R_minute) (toks [n1; n2])).
  { split; apply lang_nt_i.
    - apply lang_altr. eapply (lang_seqs_eq _ [[]; [tok_of n1]; [tok_of n2]; pre]); [cbn; now rewrite ?app_nil_r | discriminate|].
      repeat constructor; auto using lang_digit, lang_opt_none.
    - apply lang_altl. eapply (lang_seqs_eq _ [[tok_of n1]; [tok_of n2]]); [reflexivity | discriminate|].
      repeat constructor; auto using lang_digit. }
  apply lang_nt_i. rewrite !toks_app. unfold gostring, byte, rune in EW, EZ |- *. rewrite EW, EZ.
  destruct S as [->|S].
  - eapply (lang_seqs_eq _ [uw; fw ++ toks dd ++ sp; toks mo; sp ++ toks y ++ sp; toks h; toks (bs ":");
      toks [n1; n2] ++ pre; []; uz; []; [eof_tok]]).
    + cbn [concat]. unfold sp. rewrite <- ?app_assoc. cbn [app toks map]. rewrite ?app_nil_r. reflexivity.
    + discriminate.
    + repeat constructor; auto using lang_month, lang_opt_none; try (apply lang_cls_i; now left). apply LN.
  - apply ndigits_cons in S as [c1 [s1 [-> [S1 S]]]]. apply ndigits_cons in S as [c2 [s2 [-> [S2 S]]]].
    destruct S as [S _]. destruct s2; [|discriminate]. clear S.
    eapply (lang_seqs_eq _ [uw; fw ++ toks dd ++ sp; toks mo; sp ++ toks y ++ sp; toks h; toks (bs ":");
      toks [n1; n2]; toks (bs ":") ++ toks [c1; c2] ++ pre; uz; []; [eof_tok]]).
    + cbn [concat]. unfold sp. rewrite <- ?app_assoc. cbn [app toks map]. rewrite ?app_nil_r, ?toks_app, <- ?app_assoc. reflexivity.
    + discriminate.
    + repeat constructor; auto using lang_month, lang_opt_none; try (apply lang_cls_i; now left); [apply LN|].
      apply lang_opt_some. cbn [seqs]. apply lang_seq_i; [apply lang_cls_i; now left|].
      apply lang_nt_i, lang_altr.
      eapply (lang_seqs_eq _ [[]; [tok_of c1]; [tok_of c2]; pre]); [cbn; now rewrite ?app_nil_r | discriminate|].
      repeat constructor; auto using lang_digit, lang_opt_none.
Qed.
