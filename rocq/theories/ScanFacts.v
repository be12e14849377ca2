(** The scanner of ScanSpec.v on the words the relations of AddrSem.v describe. *)
From Coq Require Import String List NArith ZArith Bool Arith Lia.
From Verif Require Import Lexer Grammar Utf8 Strs Mime GoTime Parser Walker Api Spec ParserFacts
  WalkerFacts Static Cfws LangFacts LexFacts Utf8Facts DateSpec First AddrSpec AddrSem CharFacts ScanSpec.
Import ListNotations.

(** ** Running *)
Definition mo (m : mode) (rs : list rune) : mode := fst (run m rs).
Definition em (m : mode) (rs : list rune) : list emit := snd (run m rs).

Lemma run_app m x y : run m (x ++ y) = (mo (mo m x) y, em m x ++ em (mo m x) y).
Proof.
  revert m. induction x as [|r x IH]; intros m; cbn [app run].
  - unfold mo, em. cbn. destruct (run m y); reflexivity.
  - unfold mo, em in *. cbn [run]. destruct (step m r) as [m1 e1]. rewrite IH. destruct (run m1 x) as [m2 e2]. cbn.
    now rewrite app_assoc.
Qed.

Lemma mo_app m x y : mo m (x ++ y) = mo (mo m x) y.
Proof. unfold mo at 1. now rewrite run_app. Qed.

Lemma em_app m x y : em m (x ++ y) = em m x ++ em (mo m x) y.
Proof. unfold em at 1. now rewrite run_app. Qed.

Lemma mo_nil m : mo m [] = m.
Proof. reflexivity. Qed.
Lemma em_nil m : em m [] = [].
Proof. reflexivity. Qed.

Lemma mo_cons m r y : mo m (r :: y) = mo (fst (step m r)) y.
Proof. unfold mo. cbn [run]. destruct (step m r) as [m1 e1]. cbn [fst]. destruct (run m1 y). reflexivity. Qed.

Lemma em_cons m r y : em m (r :: y) = snd (step m r) ++ em (fst (step m r)) y.
Proof. unfold em. cbn [run]. destruct (step m r) as [m1 e1]. cbn [fst snd]. destruct (run m1 y). reflexivity. Qed.

Lemma mo_app_cons m x r y : mo m (x ++ r :: y) = mo (fst (step (mo m x) r)) y.
Proof. now rewrite mo_app, mo_cons. Qed.

(** [runs_to m w m' l]: scanning [w] *)
Definition runs_to (m : mode) (rs : list rune) (m' : mode) (l : list emit) : Prop := run m rs = (m', l).

Lemma runs_mo m x m' l : runs_to m x m' l -> mo m x = m'.
Proof. unfold runs_to, mo. now intros ->. Qed.
Lemma runs_em m x m' l : runs_to m x m' l -> em m x = l.
Proof. unfold runs_to, em. now intros ->. Qed.
Lemma runs_i m x m' l : mo m x = m' -> em m x = l -> runs_to m x m' l.
Proof. unfold runs_to, mo, em. destruct (run m x). cbn. now intros -> ->. Qed.

Lemma runs_app m x m1 l1 y m2 l2 : runs_to m x m1 l1 -> runs_to m1 y m2 l2 -> runs_to m (x ++ y) m2 (l1 ++ l2).
Proof.
  intros H1 H2. apply runs_i; [rewrite mo_app | rewrite em_app]; rewrite (runs_mo _ _ _ _ H1), ?(runs_em _ _ _ _ H1).
  - eapply runs_mo; eassumption.
  - now rewrite (runs_em _ _ _ _ H2).
Qed.

Lemma runs_nil m : runs_to m [] m [].
Proof. reflexivity. Qed.

Lemma runs_step m r m1 l1 y m2 l2 : step m r = (m1, l1) -> runs_to m1 y m2 l2 -> runs_to m (r :: y) m2 (l1 ++ l2).
Proof. unfold runs_to. cbn [run]. intros -> ->. reflexivity. Qed.

Lemma runs_split m x y m2 l : runs_to m (x ++ y) m2 l -> forall m1 l1, runs_to m x m1 l1 ->
  exists l2, l = l1 ++ l2 /\ runs_to m1 y m2 l2.
Proof.
  intros H m1 l1 H1. unfold runs_to in H. rewrite run_app in H. injection H as <- <-.
  rewrite (runs_mo _ _ _ _ H1), (runs_em _ _ _ _ H1). exists (em m1 y). split; [reflexivity|]. now apply runs_i.
Qed.

(** ** Single characters *)
Lemma hi_eqb r k : (128 <= r)%N -> (k < 128)%N -> (r =? k)%N = false.
Proof. intros. apply N.eqb_neq. lia. Qed.

Lemma ws_hi r : (128 <= r)%N -> ws r = false.
Proof. intros H. apply existsb_hi; [exact H | reflexivity]. Qed.

Lemma step_atext a r : atext_char r = true -> step (MN a) r = (MN a, [EA r]).
Proof.
  intros H. destruct (N.lt_ge_cases r 128) as [L|L].
  - pose proof (ascii_forall (fun r => implb (atext_char r) (negb (ws r || (r =? 40) || (r =? 34) || (r =? 91) || (r =? 60) || (r =? 62) || ((r =? 44) || (r =? 59)))%N)) eq_refl r L) as X.
    cbv beta in X. rewrite H in X. cbn [implb] in X. rewrite negb_true_iff, !orb_false_iff in X.
    destruct X as [[[[[[X1 X2] X3] X4] X5] X6] [X7 X8]]. cbn [step]. now rewrite X1, X2, X3, X4, X5, X6, X7, X8, H.
  - cbn [step]. rewrite ws_hi, !hi_eqb by lia. cbn [orb]. now rewrite H.
Qed.

Lemma step_ws a r : ws r = true -> step (MN a) r = (MN a, [EG]).
Proof. intros H. cbn [step]. now rewrite H. Qed.

Definition dots : list rune := [46; 64; 58]%N.

Lemma step_special a r : In r dots -> step (MN a) r = (MN a, [ES r]).
Proof. intros [<-|[<-|[<-|[]]]]; reflexivity. Qed.

Lemma step_sep r : In r [44; 59]%N -> step (MN false) r = (MN false, [ESep]).
Proof. intros [<-|[<-|[]]]; reflexivity. Qed.

Lemma runs_atoms a x : Forall (fun r => atext_char r = true) x -> runs_to (MN a) x (MN a) (map EA x).
Proof.
  induction 1 as [|r x Hr H IH]; [apply runs_nil|]. cbn [map]. change (EA r :: map EA x) with ([EA r] ++ map EA x).
  eapply runs_step; [now apply step_atext | exact IH].
Qed.

Lemma runs_wss a x : Forall (fun r => ws r = true) x -> runs_to (MN a) x (MN a) (repeat EG (length x)).
Proof.
  induction 1 as [|r x Hr H IH]; [apply runs_nil|]. cbn [length repeat]. change (EG :: repeat EG (length x)) with ([EG] ++ repeat EG (length x)).
  eapply runs_step; [now apply step_ws | exact IH].
Qed.

(** ** Tokens *)
Definition rs (w : word) : list rune := map tr w.

Lemma rs_app u v : rs (u ++ v) = rs u ++ rs v.
Proof. apply map_app. Qed.
Lemma rs_cons t v : rs (t :: v) = tr t :: rs v.
Proof. reflexivity. Qed.

Lemma tok_special ty c t : lexed t -> tt t = ty -> In (ty, c) [(T_Period, 46); (T_At, 64); (T_Colon, 58); (T_Comma, 44); (T_Semicolon, 59); (T_Less, 60); (T_Greater, 62); (T_DQuote, 34); (T_Backslash, 92); (T_LParens, 40); (T_RParens, 41); (T_LBracket, 91); (T_RBracket, 93); (T_Equal, 61); (T_Question, 63)]%N -> tr t = c.
Proof.
  intros L E H. cbn [In] in H.
  repeat (destruct H as [H|H]; [injection H as H1 H2; subst; eapply tok_char; [| | |exact L | symmetry; exact H1]; [vm_compute; reflexivity | reflexivity | discriminate]|]).
  destruct H.
Qed.

Ltac tokc t c := let H := fresh in assert (H : tr t = c) by (eapply tok_special; [assumption | eassumption | cbn [In]; tauto]); rewrite ?H in *.

Lemma types_chars r f w : (forall c, bmp c = true -> memb (tt (tok_of c)) (types r) = f c) -> Forall lexed w ->
  Forall (fun t => In (tt t) (types r)) w -> Forall (fun c => f c = true) (rs w).
Proof.
  intros H L Hw. unfold rs. rewrite Forall_map. rewrite Forall_forall in *. intros t Ht. eapply class_lexed; eauto.
Qed.

(** ** Comments *)
Inductive cmt : word -> Prop :=
| cm_nil : cmt []
| cm_chr : forall t w, In (tt t) (types R_ctext ++ [T_SP; T_TAB; T_CR; T_LF]) -> cmt w -> cmt (t :: w)
| cm_pair : forall b t w, tt b = T_Backslash -> cmt w -> cmt (b :: t :: w)
| cm_nest : forall o w c w', tt o = T_LParens -> tt c = T_RParens -> cmt w -> cmt w' -> cmt (o :: w ++ c :: w').

Lemma cmt_app u v : cmt u -> cmt v -> cmt (u ++ v).
Proof.
  intros H Hv. induction H; cbn [app]; try (now constructor); auto.
  rewrite <- app_assoc. cbn [app]. now constructor.
Qed.

Lemma cmt_ws u : Forall (fun t => In (tt t) [T_SP; T_TAB; T_CR; T_LF]) u -> cmt u.
Proof. induction 1; constructor; auto. apply in_app_iff. auto. Qed.

Definition is_comment (w : word) : Prop := exists o m c, w = o :: m ++ [c] /\ tt o = T_LParens /\ tt c = T_RParens /\ cmt m.

Definition cmprop (t : tree) : Prop :=
  match t with
  | Leaf _ => True
  | Node R_comment ch => is_comment (yields ch)
  | Node R_ccontent ch => cmt (yields ch)
  | Node _ _ => True
  end.

Lemma fws_derives_types f : derives (Opt (Nt R_fws)) f -> Forall (fun t => In (tt t) [T_SP; T_TAB; T_CR; T_LF]) (yields f).
Proof. intros D. apply fws_types. exists f. auto. Qed.

Lemma comment_cmt t : all_nodes derived_node t -> cmprop t.
Proof.
  induction t as [t|r ch IH] using tree_ind'; [intros _; exact I|].
  intros H. apply all_nodes_node in H as [D Hch].
  assert (IH' : Forall cmprop ch).
  { clear D. induction ch; constructor; inversion IH; inversion Hch; subst; auto. }
  clear IH Hch. unfold derived_node in D.
  destruct r; try exact I.
  - cbn [cmprop]. dinv D; rewrite yields_node.
    + destruct (single_body R_ctext _ eq_refl D) as [t [-> Ht]]. apply cm_chr; [|constructor]. apply in_app_iff. auto.
    + destruct (quoted_pair_yield _ D) as [t1 [t2 [-> E]]]. apply cm_pair; [exact E | constructor].
    + inversion IH' as [|? ? X _]; subst. destruct X as (o & m & c & E & H1 & H2 & H3). rewrite E. apply cm_nest; auto. constructor.
  - cbn [cmprop]. apply derives_seq in D as [f1 [f2 [-> [D1 D2]]]].
    apply derives_seq in D2 as [f3 [f4 [-> [D3 D4]]]].
    apply derives_seq in D4 as [f5 [f6 [-> [D5 D6]]]]. dinv D1. dinv D6.
    destruct D1 as [E1|[]]. destruct D6 as [E6|[]]. symmetry in E1, E6.
    assert (S3 : cmt (yields f3)).
    { apply derives_star in D3 as [fs [-> Hfs]].
      assert (Hin : forall x, In x (concat fs) -> cmprop x).
      { intros x Hx. rewrite Forall_forall in IH'. apply IH'. rewrite !in_app_iff. auto. }
      clear - Hfs Hin. rewrite yields_concat. induction Hfs as [|f fs Df Hfs IH]; [constructor|]. cbn [map concat].
      apply cmt_app; [|apply IH; intros x Hx; apply Hin; cbn [concat]; rewrite in_app_iff; auto].
      cbn [seqs] in Df. apply derives_seq in Df as [g1 [g2 [-> [A Bd]]]]. dinv Bd.
      rewrite yields_app, yields_node. apply cmt_app; [now apply cmt_ws, fws_derives_types|].
      specialize (Hin (Node R_ccontent ch)). apply Hin. cbn [concat]. rewrite !in_app_iff. left. right. now left. }
    rewrite !yields_app. exists t, (yields f3 ++ yields f5), t0. split; [cbn [yields flat_map yield app]; now rewrite <- app_assoc|].
    split; [exact E1|]. split; [exact E6|]. apply cmt_app; [exact S3|]. now apply cmt_ws, fws_derives_types.
Qed.

Lemma lang_comment w : lang (Nt R_comment) w -> is_comment w.
Proof.
  intros [f [D <-]]. pose proof (derives_nodes _ _ D) as HN. apply derives_nt in D as [ch [-> D]]. rewrite yields_node.
  inversion HN; subst. exact (comment_cmt _ H1).
Qed.

(** Characters that do not end or nest a comment. *)
Definition ctext_char (r : rune) : bool :=
  (negb (existsb (N.eqb r) [0; 40; 41; 92]))%N.

Lemma ctext_tok t : lexed t -> In (tt t) (types R_ctext ++ [T_SP; T_TAB; T_CR; T_LF]) -> ctext_char (tr t) = true.
Proof.
  intros L H. eapply class_lexed; [|exact L | exact H]. apply class_spec; [vm_compute; reflexivity|].
  intros r Hr. unfold ctext_char. rewrite existsb_hi by (lia || reflexivity). reflexivity.
Qed.

Lemma step_ctext a n r : ctext_char r = true -> step (MC a n) r = (MC a n, []).
Proof.
  unfold ctext_char. rewrite negb_true_iff. cbn [existsb]. rewrite !orb_false_iff. intros (_ & H1 & H2 & H3 & _).
  cbn [step]. now rewrite H1, H2, H3.
Qed.

Lemma runs_cmt w : cmt w -> Forall lexed w -> forall a n, runs_to (MC a n) (rs w) (MC a n) [].
Proof.
  induction 1 as [|t w Ht H IH|b t w Hb H IH|o w c w' Ho Hc H1 IH1 H2 IH2]; intros L a n.
  - apply runs_nil.
  - inversion L as [|? ? Lt Lw]; subst. rewrite rs_cons. change (@nil emit) with (@nil emit ++ []).
    eapply runs_step; [apply step_ctext; now apply ctext_tok | now apply IH].
  - inversion L as [|? ? Lb Lw]; subst. inversion Lw as [|? ? Lt Lw']; subst. rewrite !rs_cons. tokc b 92%N.
    change (@nil emit) with (@nil emit ++ [] ++ []).
    eapply runs_step; [reflexivity|]. eapply runs_step; [reflexivity | now apply IH].
  - inversion L as [|? ? Lo Lw]; subst. apply Forall_app in Lw as [L1 L2]. inversion L2 as [|? ? Lc L3]; subst.
    rewrite rs_cons, rs_app, rs_cons. tokc o 40%N. tokc c 41%N. change (@nil emit) with (@nil emit ++ [] ++ [] ++ []).
    eapply runs_step; [reflexivity|]. eapply runs_app; [now apply IH1|]. eapply runs_step; [reflexivity | now apply IH2].
Qed.

Lemma runs_comment w : lang (Nt R_comment) w -> Forall lexed w -> forall a, runs_to (MN a) (rs w) (MN a) [EG].
Proof.
  intros H L a. apply lang_comment in H as (o & m & c & -> & Ho & Hc & Hm).
  inversion L as [|? ? Lo Lw]; subst. apply Forall_app in Lw as [L1 L2]. inversion L2 as [|? ? Lc L3]; subst.
  rewrite rs_cons, rs_app, rs_cons. tokc o 40%N. tokc c 41%N. change [EG] with (@nil emit ++ [] ++ [EG] ++ []).
  eapply runs_step; [reflexivity|]. eapply runs_app; [now apply runs_cmt|]. eapply runs_step; [reflexivity | apply runs_nil].
Qed.

(** ** Comments and white space *)
Lemma ws_toks u : Forall lexed u -> Forall (fun t => In (tt t) [T_SP; T_TAB; T_CR; T_LF]) u -> Forall (fun r => ws r = true) (rs u).
Proof.
  intros L H. unfold rs. rewrite Forall_map. rewrite Forall_forall in *. intros t Ht.
  apply (class_lexed [T_SP; T_TAB; T_CR; T_LF] ws_char); auto using ws_class.
Qed.

Lemma runs_fws u : opt_fws u -> Forall lexed u -> forall a, runs_to (MN a) (rs u) (MN a) (repeat EG (length u)).
Proof.
  intros H L a. apply fws_types in H. pose proof (runs_wss a (rs u) (ws_toks u L H)) as R.
  unfold rs in R at 2. now rewrite map_length in R.
Qed.

(** [w] is a piece of comments and white space. *)
Definition gapw (w : word) : Prop := exists k, (forall a, runs_to (MN a) (rs w) (MN a) (repeat EG k)) /\ (k = 0 -> w = []).

Lemma gapw_app u v : gapw u -> gapw v -> gapw (u ++ v).
Proof.
  intros (k1 & R1 & E1) (k2 & R2 & E2). exists (k1 + k2). split.
  - intros a. rewrite repeat_app, rs_app. eapply runs_app; eauto.
  - intros E. rewrite E1, E2 by lia. reflexivity.
Qed.

Lemma gapw_fws u : opt_fws u -> Forall lexed u -> gapw u.
Proof.
  intros H L. exists (length u). split; [intros a; now apply runs_fws|]. destruct u; [reflexivity | discriminate].
Qed.

Lemma gapw_comment w : lang (Nt R_comment) w -> Forall lexed w -> gapw w.
Proof. intros H L. exists 1. split; [intros a; now apply runs_comment | discriminate]. Qed.

(** comments and white space as a list of items *)
Inductive cf : word -> Prop :=
| cf_nil : cf []
| cf_ws : forall t w, In (tt t) [T_SP; T_TAB; T_CR; T_LF] -> cf w -> cf (t :: w)
| cf_cm : forall c w, lang (Nt R_comment) c -> cf w -> cf (c ++ w).

Lemma cf_app u v : cf u -> cf v -> cf (u ++ v).
Proof. intros H Hv. induction H; cbn [app]; [exact Hv | constructor; auto|]. rewrite <- app_assoc. now constructor. Qed.

Lemma cf_wss u : Forall (fun t => In (tt t) [T_SP; T_TAB; T_CR; T_LF]) u -> cf u.
Proof. induction 1; constructor; auto. Qed.

Lemma cf_fws u : opt_fws u -> cf u.
Proof. intros H. apply cf_wss. now apply fws_types. Qed.

Lemma cfws_cf u : opt_cfws u -> cf u.
Proof.
  intros H. apply lang_opt_inv in H as [H| ->]; [|constructor]. apply lang_nt in H. change (body R_cfws) with g_cfws in H.
  unfold g_cfws in H. cbn [alts seqs] in H. apply lang_alt in H as [H|H].
  - apply lang_seq in H as (x & y & -> & H1 & H2). apply cf_app; [|now apply cf_fws].
    apply lang_plus_inv in H1 as (z & us & -> & H1). clear H2. induction H1 as [|u vs Hu H IH]; [constructor|]. cbn [concat].
    apply cf_app; [|exact IH]. apply lang_seq in Hu as (f & c & -> & F & C). apply cf_app; [now apply cf_fws|].
    rewrite <- (app_nil_r c). constructor; [exact C | constructor].
  - apply cf_fws. now apply lang_opt_some.
Qed.

Lemma cf_gapw u : cf u -> Forall lexed u -> gapw u.
Proof.
  induction 1 as [|t w Ht H IH|c w Hc H IH]; intros L.
  - exists 0. split; [intros a; apply runs_nil | reflexivity].
  - inversion L as [|? ? Lt Lw]; subst. change (t :: w) with ([t] ++ w). apply gapw_app; [|auto]. exists 1.
    split; [|discriminate]. intros a. change (repeat EG 1) with (repeat EG (length (rs [t]))). apply runs_wss. apply ws_toks; auto.
  - apply Forall_app in L as [L1 L2]. apply gapw_app; [now apply gapw_comment | auto].
Qed.

Lemma gapw_cfws u : opt_cfws u -> Forall lexed u -> gapw u.
Proof. intros H. apply cf_gapw. now apply cfws_cf. Qed.
