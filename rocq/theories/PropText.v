(** Address lists written as in AddrText.v are accepted and mean what AddrText.v says. *)
From Coq Require Import String List NArith ZArith Bool Arith Lia.
From Verif Require Import Lexer Grammar Utf8 Strs Mime GoTime Parser Walker Api Spec ParserFacts
  WalkerFacts Static Total Cfws LangFacts LexFacts Utf8Facts First DateSpec AddrSpec Chosen AddrSem CharFacts PropApi PropInv
  ScanSpec ScanFacts ScanEnc ScanWords ScanName ScanAddr ScanBox ScanList PropScan MboxList AddrText TextLang TextScan TextFold.
Import ListNotations.

Lemma kept_bmp s x : decode s = x -> bmps x -> kept s = x.
Proof. intros <- H. unfold kept. induction H as [|r l Hr H IH]; [reflexivity|]. cbn [filter]. rewrite Hr. now f_equal. Qed.

Lemma tokens_text e s x : decode s = x -> bmps x -> tokens e s = toks x ++ [eof_tok].
Proof. intros <- H. unfold tokens. now apply lex_bmp_text. Qed.

Section lists.
  Variables (rd : charset_reader) (enc : bool).

  Definition listE (hb : bool) (x : list rune) (l : list addr) : Prop := exists E, runs_to (MN false) x (MN false) E /\ okruns enc [] E /\
    forall k, elements rd (E ++ repeat EG k) = l /\ (hb = true -> headok (E ++ repeat EG k)).

  Lemma box_list x m : mailbox_m rd enc x m -> listE true x [m] /\ x <> [].
  Proof.
    intros H. destruct (mailbox_scanT rd enc x m H) as (E & RE & V & U & (r & IR) & N & K). split.
    - exists E. split; [exact RE|]. split; [exact K|]. intros k.
      assert (NS : noSep (E ++ repeat EG k)) by (apply Forall_app; split; [exact N | apply noSep_gaps]).
      assert (IN : In (ES r) (E ++ repeat EG k)) by (apply in_app_iff; now left).
      split.
      + rewrite elements_one by exact NS. unfold element. rewrite U, (gaps_In _ (ES r) IN eq_refl), V. reflexivity.
      + intros _ p ps Hp. rewrite pieces_one in Hp by exact NS. injection Hp as <- <-. split; [now apply (port_like_special _ r) | apply U].
    - intros ->. apply runs_em in RE. subst E. destruct IR.
  Qed.

  Lemma list_sep hb x l s y l' : listE hb x l -> s = 44%N \/ s = 59%N -> listE false y l' -> listE hb (x ++ [s] ++ y) (l ++ l').
  Proof.
    intros (E & RE & KE & VE) Hs (F & RF & KF & VF). exists (E ++ ESep :: F). split; [|split].
    - eapply runs_app; [exact RE|]. apply (runs_step _ _ (MN false) [ESep]); [apply step_sep; cbn; intuition | exact RF].
    - apply okruns_join; [exact KE | exact I | split; [apply okrun_nil | exact KF]].
    - intros k. rewrite <- app_assoc. cbn [app]. destruct (VE 0) as [V1 V2]. cbn [repeat] in *. rewrite app_nil_r in *. split; [rewrite elements_sep, V1; f_equal; apply VF|].
      intros H. apply headok_sep, V2, H.
  Qed.

  Lemma list_weak hb x l : listE hb x l -> listE false x l.
  Proof. intros (E & RE & KE & VE). exists E. split; [exact RE|]. split; [exact KE|]. intros k. split; [apply VE | discriminate]. Qed.

  Lemma gap_list x : ogap x -> listE true x [].
  Proof.
    intros H. destruct (gap_emits x H) as (k & K & _). exists (repeat EG k). split; [apply K|]. split; [apply okruns_gapsT, okrun_nil|]. intros j. rewrite <- repeat_app.
    split; [apply elements_gaps | intros _; apply headok_gaps].
  Qed.

  Lemma mailboxes_list x l : mailboxes_m rd enc x l -> listE false x l /\ x <> [] /\ l <> [].
  Proof.
    induction 1 as [x a H|x a s y l H Hs H' (IH & N & _)]; apply box_list in H as [LE Nx].
    - split; [now apply (list_weak true)|]. split; [exact Nx | discriminate].
    - split; [apply (list_sep false x [a]); [now apply (list_weak true) | exact Hs | exact IH]|]. split; [destruct x; [congruence | discriminate] | discriminate].
  Qed.

  Lemma sparse_list hb (P : list rune -> list addr -> Prop) b y l : (forall x l, P x l -> listE hb x l) -> sparse P b y l -> listE hb y l.
  Proof.
    intros HP H. assert (G : forall x, ogap x -> listE hb x []) by (intros x Hx; destruct hb; [now apply gap_list | now apply (list_weak true), gap_list]).
    induction H as [x l H|x H|x l b y l' H H' IH|x b y l' H H' IH]; auto.
    - change (bs ",") with [44%N]. apply list_sep; auto. now apply (list_weak hb).
    - change (bs ",") with [44%N]. change l' with ([] ++ l'). apply list_sep; auto. now apply (list_weak hb).
  Qed.

  Lemma group_list x l : group_m rd enc x l -> listE false x l.
  Proof.
    intros [n g b y l' s g' Hn Hg Hy Hs Hg' Hsg]. destruct (name_scan rd enc n Hn) as (N & EN & DN & _ & KN). destruct (wgap_emits enc g Hg) as (k & K & _).
    assert (Y : listE true (y ++ s ++ g') l').
    { apply (sparse_list true) in Hy.
      - destruct Hs as [->| ->]; [rewrite (Hsg eq_refl), !app_nil_r; exact Hy|]. rewrite <- (app_nil_r l'). apply list_sep; [exact Hy | now right | now apply (list_weak true), gap_list].
      - intros x0 l0 (a & H & ->). now apply box_list in H. }
    destruct Y as (E & RE & KE & VE). exists ((N ++ repeat EG k) ++ ES 58%N :: E).
    assert (O : Forall (only [46%N; 64%N]) (N ++ repeat EG k)) by (apply Forall_app; split; [now apply disp_only | apply only_gaps]).
    split; [|split].
    - replace (name_text n ++ g ++ bs ":" ++ y ++ s ++ g') with ((name_text n ++ g) ++ [58%N] ++ (y ++ s ++ g')) by (now rewrite <- !app_assoc).
      eapply runs_app; [eapply runs_app; [apply EN | apply K]|]. apply (runs_step _ _ (MN false) [ES 58%N]); [reflexivity | exact RE].
    - apply okruns_ES; [apply okruns_join; [exact KN | destruct k; exact I | apply okruns_gapsT, okrun_nil] | exact KE].
    - intros j. rewrite <- app_assoc. cbn [app]. split; [|discriminate]. rewrite group_head.
      + apply VE.
      + apply (only_noSep _ _ O).
      + apply (only_without _ _ _ O). cbn [In]. intuition discriminate.
      + apply (only_without _ _ _ O). cbn [In]. intuition discriminate.
      + apply VE. reflexivity.
  Qed.

  Lemma address_list x l : address_m rd enc x l -> listE false x l.
  Proof. intros [(a & H & ->)|H]; [apply (list_weak true); now apply box_list in H | now apply group_list]. Qed.

  Lemma address_nonnil x l : address_m rd enc x l -> x <> [].
  Proof.
    intros [(a & H & ->)|H]; [now apply box_list in H|]. destruct H as [n g b y l' s g' _ _ _ _ _ _]. destruct (name_text n); [|discriminate]. destruct g; discriminate.
  Qed.

  Lemma addresses_nonnil x l : addresses_m rd enc x l -> x <> [].
  Proof. intros [x' l' H|x' l' s y l'' H _ _]; [now apply address_nonnil in H|]. destruct x'; discriminate. Qed.

  Lemma sparse_nonnil b x l : sparse (address_m rd enc) b x l -> b = true -> x <> [].
  Proof. intros [x' l' H|x' H|x' l' b' y l'' _ _|x' b' y l'' _ _] E; try discriminate E; [now apply address_nonnil in H | |]; destruct x'; discriminate. Qed.

  Lemma addresses_list x l : addresses_m rd enc x l -> listE false x l.
  Proof. induction 1; [now apply address_list | apply list_sep; auto; now apply address_list]. Qed.

  Lemma list_value_eq x l : listE false x l -> addresses_of rd x = l /\ okruns enc [] (scan x).
  Proof.
    intros (E & RE & KE & VE). unfold addresses_of. rewrite scan_em, (runs_em _ _ _ _ RE). split; [|exact KE]. destruct (VE 0) as [V _]. cbn [repeat] in V. now rewrite app_nil_r in V.
  Qed.
End lists.

(** A list of mailboxes. *)
Theorem C15_mailbox_list : forall (e : env) (s : gostring) (enc : bool) (l : list addr),
  mailboxes_m (reader (wenv_of e)) enc (decode s) l ->
  ParseAddressList e s = Ret (Some l) None.
Proof.
  intros e s enc l H. assert (O : enc = true -> one_fold (decode s)) by (intros E; subst enc; exact (mailboxes_fold _ _ _ H)). remember (decode s) as x eqn:D. symmetry in D. destruct (mailboxes_list _ _ _ _ H) as (LE & Nx & Nl). destruct (mailboxes_lang _ _ _ _ H) as (B & y & z & Ex & Ly & Mz).
  apply list_value_eq in LE as [V K]. assert (Hs : s <> []) by (intros ->; cbn in D; congruence).
  assert (T : tokens e s = (toks y ++ toks z) ++ [eof_tok]) by (rewrite <- toks_app, <- Ex; now apply tokens_text).
  assert (R : rs (toks y ++ toks z) = x) by (rewrite <- toks_app, <- Ex; apply rs_toks).
  destruct (mailbox_list_value e s enc (toks y) (toks z) Hs T) as (sl & P & E); auto.
  - split; [rewrite <- toks_app, <- Ex; now apply toks_lexed_bmp|]. rewrite R. split; [exact (okruns_tamed _ _ _ _ K) | auto].
  - rewrite P. f_equal. rewrite R, V in E. destruct sl as [l0|]; [cbn in E; now subst|]. exfalso. apply Nl. symmetry. exact E.
Qed.

(** Mailboxes and groups. *)
Lemma accepted_value e s enc x l : decode s = x -> bmps x -> x <> [] -> lang (Nt R_addressList) (toks x ++ [eof_tok]) -> listE (reader (wenv_of e)) enc false x l ->
  paired x -> (enc = true -> one_fold x) -> exists sl, ParseAddressList e s = Ret sl None /\ elems sl = l.
Proof.
  intros D B Nx L LE Q O. apply list_value_eq in LE as [V K]. assert (Hs : s <> []) by (intros ->; cbn in D; congruence). assert (KS : kept s = x) by (now apply kept_bmp).
  destruct (proj2 (C04_accepts_grammar e s Hs)) as [sl P]; [rewrite (tokens_text e s x D B); exact L|]. exists sl. split; [exact P|].
  rewrite <- V, <- KS. apply C47_addresses_are_what_the_scanner_reports; rewrite ?KS; auto. apply okruns_side. destruct enc; auto.
Qed.

Theorem C17_groups_and_mailboxes : forall (e : env) (s : gostring) (enc : bool) (l : list addr),
  addresses_m (reader (wenv_of e)) enc (decode s) l ->
  paired (decode s) ->
  exists sl, ParseAddressList e s = Ret sl None /\ elems sl = l.
Proof.
  intros e s enc l H Q. assert (O : enc = true -> one_fold (decode s)) by (intros E; subst enc; exact (addresses_fold _ _ _ H)). destruct (addresses_lang _ _ _ _ H) as [B L]. apply (accepted_value e s enc (decode s)); auto; [now apply addresses_nonnil in H | now apply addresses_list].
Qed.

(** Empty entries. *)
Theorem C16_empty_entries : forall (e : env) (s : gostring) (enc : bool) (l : list addr),
  sparse (address_m (reader (wenv_of e)) enc) true (decode s) l ->
  paired (decode s) ->
  exists sl, ParseAddressList e s = Ret sl None /\ elems sl = l.
Proof.
  intros e s enc l H Q. assert (O : enc = true -> one_fold (decode s)) by (intros E; subst enc; exact (sparse_fold _ _ _ _ H)). destruct (sparse_lang _ _ _ _ H) as [B L]. apply (accepted_value e s enc (decode s)); auto; [now apply sparse_nonnil in H|].
  apply (sparse_list _ _ false _ _ _ _ (address_list _ _) H).
Qed.
