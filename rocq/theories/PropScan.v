(** C47: the addresses of an accepted text are what the scanner of ScanSpec.v reports. *)
From Coq Require Import String List NArith ZArith Bool Arith Lia.
From Verif Require Import Lexer Grammar Utf8 Strs Mime GoTime Parser Walker Api Spec ParserFacts
  WalkerFacts Static Total Cfws LangFacts LexFacts Utf8Facts First DateSpec AddrSpec Chosen AddrSem CharFacts PropApi PropInv
  ScanSpec ScanFacts ScanEnc ScanWords ScanName ScanAddr ScanBox ScanList ScanPhase.
Import ListNotations.

Lemma rs_toks x : rs (toks x) = x.
Proof. apply map_tr_tok_of. Qed.

Lemma scan_em x : scan x = em (MN false) x.
Proof. reflexivity. Qed.

Lemma mono_tail (P Q : word -> list addr -> Prop) seps t l : r_tail P seps t l ->
  (forall x m, P x m -> incl x t -> Q x m) -> r_tail Q seps t l.
Proof.
  induction 1 as [|k x l w l' Hk Hx H IH|k x w l' Hk Hx H IH]; intros HI; [constructor| |].
  - apply rt_item; [exact Hk | |].
    + apply HI; [exact Hx|]. intros y Hy. right. apply in_app_iff. now left.
    + apply IH. intros x' m Hx' Hin. apply HI; [exact Hx'|]. intros y Hy. right. apply in_app_iff. right. now apply Hin.
  - apply rt_skip; [exact Hk | exact Hx|]. apply IH. intros x' m Hx' Hin. apply HI; [exact Hx'|]. intros y Hy. right. apply in_app_iff. right. now apply Hin.
Qed.

Lemma mono_list (P Q : word -> list addr -> Prop) seps w l : r_list P seps w l ->
  (forall x m, P x m -> incl x w -> Q x m) -> r_list Q seps w l.
Proof.
  intros (j & x & l1 & t & l2 & -> & Hj & Hx & Ht & ->) H. exists j, x, l1, t, l2. split; [reflexivity|]. split; [exact Hj|].
  split; [apply H; [exact Hx|]; intros y Hy; rewrite !in_app_iff; tauto|]. split; [|reflexivity].
  apply (mono_tail P); [exact Ht|]. intros x' m Hx' Hin. apply H; [exact Hx'|]. intros y Hy. rewrite !in_app_iff. auto.
Qed.

Lemma two_seps t : In t [T_Comma; T_Semicolon] -> t = T_Comma \/ t = T_Semicolon.
Proof. intros [<-|[<-|[]]]; auto. Qed.

(** ** A reading has the value the scanner gives *)
Lemma list_value_scan rd b w l (P : word -> list addr -> Prop) : scanned rd b false P -> r_list P [T_Comma; T_Semicolon] w l ->
  Forall lexed w -> tamed b (MN false) (rs w) -> (b = true -> one_fold (rs w)) -> l = addresses_of rd (rs w).
Proof.
  intros HP R L K O. destruct (list_scan rd b false P [T_Comma; T_Semicolon] HP two_seps w l [] R L eq_refl) as (E & RE & V); [now rewrite app_nil_r | exact O|].
  unfold addresses_of. rewrite scan_em, (runs_em _ _ _ _ RE). destruct (V 0) as [V0 _]. cbn [repeat] in V0. now rewrite app_nil_r in V0.
Qed.

(** ** Texts without unusual encoded words *)
Lemma no_enc_tamed x : no_enc x -> tamed false (MN false) x.
Proof. intros H c e t He. destruct (H c e t He). Qed.
Lemma tame_tamed x : tame x -> tamed true (MN false) x.
Proof. intros H c e t He. split; [reflexivity | exact (H c e t He)]. Qed.
Lemma okruns_no_enc x : okruns false [] (scan x) -> no_enc x.
Proof. intros H c e t He. destruct (okruns_tamed _ _ _ _ H c e t He) as [X _]. discriminate X. Qed.
Lemma okruns_tame x : okruns true [] (scan x) -> tame x.
Proof. intros H c e t He. now destruct (okruns_tamed _ _ _ _ H c e t He). Qed.

(** C47.  Side conditions: double quotes pair up in only one way, which is so unless the text contains
    both double quotes and colons, and in that case too if it is regular or has no loose quotes (see ScanSpec.v); and either no
    encoded word occurs outside comments, quotes and brackets, or the encoded words that occur there have
    atom characters only, and no line of white space is folded twice. *)
Lemma paired_list rd b w l : r_list (r_address rd) [T_Comma; T_Semicolon] w l -> Forall lexed w -> paired (rs w) -> tamed b (MN false) (rs w) -> (b = true -> one_fold (rs w)) ->
  r_list (r_address0 rd) [T_Comma; T_Semicolon] w l.
Proof.
  intros R L NQ K O. assert (C : ~ In 34%N (rs w) \/ ~ In 58%N (rs w) -> r_list (r_address0 rd) [T_Comma; T_Semicolon] w l).
  { intros N. apply (mono_list _ _ _ _ _ R). intros x m Hx Hin. apply address_address0; [exact Hx | | destruct N as [N|N]; [left|right]; intros HN; apply N; unfold rs in *; apply in_map_iff in HN as (t & <- & Ht); now apply in_map, Hin].
    rewrite Forall_forall in *. auto. }
  destruct NQ as [N|[N|[N|N]]]; auto; [now apply (list0 rd b) | now apply list1].
Qed.

Theorem C47_addresses_are_what_the_scanner_reports : forall e s sl, ParseAddressList e s = Ret sl None ->
  paired (kept s) -> no_enc (kept s) \/ (tame (kept s) /\ one_fold (kept s)) ->
  elems sl = addresses_of (reader (wenv_of e)) (kept s).
Proof.
  intros e s sl H NQ K. destruct s as [|c s]; [cbn in H; injection H as <-; reflexivity|]. apply reading in H as [L R]; [|discriminate].
  set (w := toks (kept (c :: s))) in *. assert (E : kept (c :: s) = rs w) by (symmetry; apply rs_toks). rewrite E in *. clear E. clearbody w.
  destruct K as [K|[K O]]; [apply no_enc_tamed in K | apply tame_tamed in K].
  - apply (paired_list _ false) in R; [|exact L | exact NQ | exact K | discriminate]. eapply (list_value_scan _ false); [apply address0_scanned | exact R | exact L | exact K | discriminate].
  - apply (paired_list _ true) in R; [|exact L | exact NQ | exact K | auto]. eapply (list_value_scan _ true); [apply address0_scanned | exact R | exact L | exact K | auto].
Qed.

Lemma okruns_side x : okruns false [] (scan x) \/ (okruns true [] (scan x) /\ one_fold x) -> no_enc x \/ (tame x /\ one_fold x).
Proof. intros [K|[K O]]; [left; now apply okruns_no_enc | right; split; [now apply okruns_tame | exact O]]. Qed.

(** in particular where "=?" does not occur at all *)
Lemma intro_cons_false r s : intro (r :: s) = false -> intro s = false.
Proof. destruct s as [|r2 s]; [reflexivity|]. intros H. change (((r =? 61) && (r2 =? 63) || intro (r2 :: s))%N%bool = false) in H. now apply orb_false_iff in H. Qed.

Lemma intro_app_false p x : intro (p ++ x) = false -> intro p = false /\ intro x = false.
Proof.
  intros H. destruct p as [|c p]; [auto|]. destruct x as [|d x]; [rewrite app_nil_r in H; auto|].
  split.
  - revert c H. induction p as [|c' p IH]; intros c H; [reflexivity|]. cbn [app intro] in *. apply orb_false_iff in H as [H1 H2]. now rewrite H1, IH.
  - revert H. generalize (c :: p). intros q H. induction q as [|c' q IH]; [exact H|]. cbn [app] in H. exact (IH (intro_cons_false _ _ H)).
Qed.

Lemma okruns_plain x : forall m p, intro p = false -> intro x = false -> (forall a, m = MN a -> intro (p ++ x) = false) -> okruns false p (em m x).
Proof.
  induction x as [|r x IH]; intros m p Hp Hx Hm; [left; exact Hp|]. rewrite em_cons. pose proof (intro_cons_false _ _ Hx) as Hx'.
  assert (N : forall m' e, step m r = (m', [e]) -> (match e with EA _ => false | _ => true end) = true -> okruns false p (snd (step m r) ++ em (fst (step m r)) x)).
  { intros m' e -> He. cbn [fst snd app]. destruct e; try discriminate He; (split; [now left|]; apply IH; [reflexivity | exact Hx' | intros; exact Hx']). }
  assert (Z : forall m', step m r = (m', []) -> (forall a, m' <> MN a) -> okruns false p (snd (step m r) ++ em (fst (step m r)) x)).
  { intros m' -> He. cbn [fst snd app]. apply IH; [exact Hp | exact Hx' | intros a ->; destruct (He a eq_refl)]. }
  destruct m as [a|a n|a n|a acc pend|a acc pend|a acc]; cbn [step] in *.
  - destruct (ws r); [eapply N; reflexivity|]. destruct (r =? 40)%N; [eapply Z; [reflexivity | discriminate]|]. destruct (r =? 34)%N; [eapply Z; [reflexivity | discriminate]|].
    destruct (r =? 91)%N; [eapply Z; [reflexivity | discriminate]|]. destruct (r =? 60)%N; [eapply N; reflexivity|]. destruct (r =? 62)%N; [eapply N; reflexivity|].
    destruct ((r =? 44) || (r =? 59))%N%bool; [eapply N; [reflexivity | destruct a; reflexivity]|]. destruct (atext_char r); [|eapply N; reflexivity].
    cbn [fst snd app okruns]. specialize (Hm a eq_refl). apply IH; [|exact Hx'|].
    + change (r :: x) with ([r] ++ x) in Hm. rewrite app_assoc in Hm. now apply intro_app_false in Hm.
    + intros a' _. change (r :: x) with ([r] ++ x) in Hm. now rewrite app_assoc in Hm.
  - destruct (r =? 40)%N; [eapply Z; [reflexivity | discriminate]|]. destruct (r =? 41)%N; [destruct n; [eapply N; reflexivity | eapply Z; [reflexivity | discriminate]]|].
    destruct (r =? 92)%N; eapply Z; try reflexivity; discriminate.
  - eapply Z; [reflexivity | discriminate].
  - destruct (r =? 34)%N; [eapply N; reflexivity|]. destruct (r =? 92)%N; [eapply Z; [reflexivity | discriminate]|]. destruct (ws r); eapply Z; try reflexivity; discriminate.
  - eapply Z; [reflexivity | discriminate].
  - destruct (r =? 93)%N; [eapply N; reflexivity | eapply Z; [reflexivity | discriminate]].
Qed.

Lemma okruns_scan x : intro x = false -> okruns false [] (scan x).
Proof. intros H. rewrite scan_em. apply okruns_plain; auto. Qed.

(** The same where "=?" does not occur at all. *)
Theorem C47_without_encoded_words : forall e s sl, ParseAddressList e s = Ret sl None ->
  paired (kept s) -> intro (kept s) = false ->
  elems sl = addresses_of (reader (wenv_of e)) (kept s).
Proof. intros e s sl H N K. apply C47_addresses_are_what_the_scanner_reports; auto using okruns_scan, okruns_no_enc. Qed.

(** ** Checking a text for tameness *)
Definition enc_at (s : list rune) : option (list rune) :=
  match s with
  | 61%N :: 63%N :: s1 => match until 63%N s1 with
    | Some (c, s2) => match until 63%N s2 with
      | Some (e, s3) => match until 63%N s3 with
        | Some (t, 61%N :: _) => if full any_token_char c && full any_token_char e && full any_text_char t then Some (enc_word c e t) else None
        | _ => None end
      | None => None end
    | None => None end
  | _ => None
  end.

Fixpoint tameb (b : bool) (m : mode) (x : list rune) : bool :=
  match x with
  | [] => true
  | r :: x' => (if plain_mode m then match enc_at (r :: x') with Some w => b && forallb atext_char w | None => true end else true) && tameb b (fst (step m r)) x'
  end.

Lemma enc_at_i c e t z : encg c e t -> enc_at (enc_word c e t ++ z) = Some (enc_word c e t).
Proof.
  intros H. destruct (encg_wide c e t H) as (c' & e' & t' & Ew & (Nc & Uc & _) & (Ne & Ue & _) & Ut & Nt).
  destruct (encg_wide c e t H) as (c1 & e1 & t1 & E1 & W1).
  assert (Q : unq c /\ unq e /\ unq t).
  { destruct H as (H1 & H2 & H3). apply full_spec in H1 as [_ H1], H2 as [_ H2], H3 as [_ H3].
    split; [|split]; unfold unq; (eapply Forall_impl; [|eassumption]); cbn beta; intros r Hr.
    - now apply any_token_no in Hr.
    - now apply any_token_no in Hr.
    - unfold any_text_char in Hr. apply andb_true_iff in Hr as [_ Hr]. now apply negb_true_iff, N.eqb_neq in Hr. }
  destruct Q as (Q1 & Q2 & Q3). rewrite enc_word_app. cbn [enc_at]. rewrite (until_app c _ Q1), (until_app e _ Q2), (until_app t _ Q3).
  destruct H as (-> & -> & ->). reflexivity.
Qed.

Lemma tameb_tamed b x : forall m, tameb b m x = true -> tamed b m x.
Proof.
  induction x as [|r x IH]; intros m H c e t (a & z & E & P & He).
  - exfalso. destruct a; discriminate E.
  - cbn [tameb] in H. apply andb_true_iff in H as [H1 H2]. destruct a as [|r' a].
    + cbn [app] in E. cbn in P. rewrite P in H1. rewrite E, (enc_at_i c e t z He) in H1. now apply andb_true_iff in H1.
    + cbn [app] in E. injection E as <- E. apply (IH _ H2). exists a, z. split; [exact E|]. split; [|exact He].
      fold (mo m (r :: a)) in P. rewrite mo_cons in P. exact P.
Qed.

Lemma tameb_tame x : tameb true (MN false) x = true -> tame x.
Proof. intros H c e t He. now destruct (tameb_tamed true x _ H c e t He). Qed.
Lemma tameb_no_enc x : tameb false (MN false) x = true -> no_enc x.
Proof. intros H c e t He. destruct (tameb_tamed false x _ H c e t He) as [X _]. discriminate X. Qed.

(** The hypotheses of C47 are met, non-trivially. *)
Example C47_met : let s := bs "g: A.(x)B <c@d>, (,) e@f;" in
  (exists sl, ParseAddressList env0 s = Ret sl None /\ elems sl = addresses_of (reader (wenv_of env0)) (kept s)) /\
  ~ In 34%N (kept s) /\ intro (kept s) = false /\
  addresses_of (reader (wenv_of env0)) (kept s) = [mkAddr (bs "A.B") (bs "c@d"); mkAddr [] (bs "e@f")].
Proof.
  cbv zeta. split; [|split; [|split]].
  - eexists. split; [vm_compute; reflexivity | vm_compute; reflexivity].
  - vm_compute. intuition discriminate.
  - vm_compute. reflexivity.
  - vm_compute. reflexivity.
Qed.

Example C47_met_quotes : let s := bs """A B"" <c@d>, g: ""E F"" <g@h>;" in
  (exists sl, ParseAddressList env0 s = Ret sl None) /\ paired (kept s) /\ intro (kept s) = false /\
  addresses_of (reader (wenv_of env0)) (kept s) = [mkAddr (bs "A B") (bs "c@d"); mkAddr (bs "E F") (bs "g@h")].
Proof.
  cbv zeta. split; [|split; [|split]].
  - eexists. vm_compute. reflexivity.
  - right. right. left. vm_compute. reflexivity.
  - vm_compute. reflexivity.
  - vm_compute. reflexivity.
Qed.

Example C47_met_loose : let s := bs "g: ""E:\""F"" <g@h>;" in
  (exists sl, ParseAddressList env0 s = Ret sl None) /\ paired (kept s) /\ intro (kept s) = false /\
  addresses_of (reader (wenv_of env0)) (kept s) = [mkAddr (bs "E:""F") (bs "g@h")].
Proof.
  cbv zeta. split; [|split; [|split]].
  - eexists. vm_compute. reflexivity.
  - right. right. right. vm_compute. reflexivity.
  - vm_compute. reflexivity.
  - vm_compute. reflexivity.
Qed.

(** The condition on line breaks is needed: between encoded words with three line breaks between
    them, each followed by one space, the parser ends one word and starts another, and the name
    gets a space that it does not get with one line break. *)
Theorem C47_fails_with_blank_lines : let f := [13; 10; 32]%N in
  let s := bs "=?utf-8?Q?a?=" ++ f ++ f ++ f ++ bs "=?utf-8?Q?b?= <a@b>" in
  paired (kept s) /\ tame (kept s) /\
  (exists sl, ParseAddressList env0 s = Ret sl None /\ elems sl = [mkAddr (bs "a b") (bs "a@b")]) /\
  addresses_of (reader (wenv_of env0)) (kept s) = [mkAddr (bs "ab") (bs "a@b")].
Proof.
  cbv zeta. split; [left; vm_compute; intuition discriminate|]. split; [|split].
  - apply okruns_tame. vm_compute. repeat split; first [left; reflexivity | right; split; reflexivity].
  - eexists. split; vm_compute; reflexivity.
  - vm_compute. reflexivity.
Qed.

(** An encoded word need not stand alone: the characters after it are a word of their own, those
    before it make it a part of their word.  One with other characters than those of encoded words is
    not an encoded word. *)
Example C47_met_mixed : let s := bs "=?utf-8?Q?b?=y x=?utf-8?Q?c?= =?utf-8?Q? <a@b>" in
  (exists sl, ParseAddressList env0 s = Ret sl None) /\ paired (kept s) /\ tame (kept s) /\ one_fold (kept s) /\
  addresses_of (reader (wenv_of env0)) (kept s) = [mkAddr (bs "b y x=?utf-8?Q?c?= =?utf-8?Q?") (bs "a@b")].
Proof.
  cbv zeta. split; [|split; [|split; [|split]]].
  - eexists. vm_compute. reflexivity.
  - left. vm_compute. intuition discriminate.
  - apply tameb_tame. vm_compute. reflexivity.
  - intros p x q E. exfalso. assert (C : ~ In 13%N (kept (bs "=?utf-8?Q?b?=y x=?utf-8?Q?c?= =?utf-8?Q? <a@b>"))) by (vm_compute; intuition discriminate).
    apply C. rewrite E, !in_app_iff. right. left. now left.
  - vm_compute. reflexivity.
Qed.

(** The condition on the characters of encoded words is needed: the grammar has encoded words with
    a comma in them. *)
Theorem C47_fails_with_special_characters : let s := bs "=?utf-8?Q?a,b?= <c@d>" in
  paired (kept s) /\ one_fold (kept s) /\ ~ tame (kept s) /\
  (exists sl, ParseAddressList env0 s = Ret sl None /\ elems sl = [mkAddr (bs "a,b") (bs "c@d")]) /\
  addresses_of (reader (wenv_of env0)) (kept s) <> [mkAddr (bs "a,b") (bs "c@d")].
Proof.
  cbv zeta. split; [left; vm_compute; intuition discriminate|]. split; [|split; [|split]].
  - intros p x q E. exfalso. assert (C : ~ In 13%N (kept (bs "=?utf-8?Q?a,b?= <c@d>"))) by (vm_compute; intuition discriminate).
    apply C. rewrite E, !in_app_iff. right. left. now left.
  - intros H. specialize (H (bs "utf-8") (bs "Q") (bs "a,b")). assert (X : forallb atext_char (enc_word (bs "utf-8") (bs "Q") (bs "a,b")) = true).
    { apply H. exists [], (bs " <c@d>"). vm_compute. repeat split; reflexivity. }
    vm_compute in X. discriminate X.
  - eexists. split; vm_compute; reflexivity.
  - vm_compute. discriminate.
Qed.
