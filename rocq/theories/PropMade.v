(** C59: every name and address is read off its own stretch of the input, and what else C21 says of
    its text. *)
From Coq Require Import String List NArith ZArith Bool Arith Lia.
From Verif Require Import Lexer Grammar Utf8 Strs Mime GoTime Parser Walker Api Spec ParserFacts
  WalkerFacts Static Total Cfws LangFacts LexFacts Utf8Facts First DateSpec AddrSpec Chosen AddrSem CharFacts PropApi DateMore PropInv AddrText PropStable.
Import ListNotations.

(** * Specification *)

(** [made rd u v]: [v] is [u] read from left to right, with characters copied or left out, spaces
    put in, and encoded words replaced by what they stand for. *)
Inductive made (rd : charset_reader) : list rune -> gostring -> Prop :=
| made_nothing : forall u, made rd u []
| made_copy : forall r, made rd [r] (encode [r])
| made_space : made rd [] (bs " ")
| made_decoded : forall u v, word_decode rd (encode u) = Some v -> made rd u v
| made_app : forall u1 u2 v1 v2, made rd u1 v1 -> made rd u2 v2 -> made rd (u1 ++ u2) (v1 ++ v2).

(** Each name and each address from a stretch of its own, in order. *)
Inductive read_off (rd : charset_reader) : list rune -> list addr -> Prop :=
| off_none : forall u, read_off rd u []
| off_next : forall u n m rest a l, made rd n (a_name a) -> made rd m (a_address a) -> read_off rd rest l ->
    read_off rd (u ++ n ++ m ++ rest) (a :: l).

Definition valid_text (v : gostring) : Prop := exists rs, Forall valid_rune rs /\ v = encode rs.

(** valid UTF-8, apart from what encoded words in [s] stand for *)
Definition valid_but_decoded (rd : charset_reader) (s : list rune) (v : gostring) : Prop :=
  exists l, v = concat l /\
    Forall (fun p => valid_text p \/ exists u, part u s /\ word_decode rd (encode u) = Some p) l.

(** * Proofs *)
Section MADE.
Variable rd : charset_reader.

Definition from (w : word) (v : gostring) : Prop := made rd (map tr w) v.
Definition nodec (w : word) : Prop := Forall lexed w.

Lemma from_nil w : from w [].
Proof. apply made_nothing. Qed.

Lemma from_app w1 w2 v1 v2 : from w1 v1 -> from w2 v2 -> from (w1 ++ w2) (v1 ++ v2).
Proof. intros H1 H2. unfold from. rewrite map_app. now apply made_app. Qed.

Lemma from_space w : from w (bs " ").
Proof. unfold from. change (map tr w) with ([] ++ map tr w). change (bs " ") with (bs " " ++ []). apply made_app; [apply made_space | apply made_nothing]. Qed.

Lemma from_text w : Forall lexed w -> from w (text w).
Proof.
  intros L. unfold from. rewrite (text_lexed w L). generalize (map tr w) as l. induction l as [|r l IH]; [apply made_nothing|].
  change (r :: l) with ([r] ++ l). rewrite encode_app. apply made_app; [apply made_copy | exact IH].
Qed.

Lemma from_l w1 w2 v : from w1 v -> from (w1 ++ w2) v.
Proof. intros H. rewrite <- (app_nil_r v). apply from_app; [assumption | apply from_nil]. Qed.

Lemma from_r w1 w2 v : from w2 v -> from (w1 ++ w2) v.
Proof. intros H. change v with ([] ++ v). apply from_app; [apply from_nil | assumption]. Qed.

Lemma from_mid u m u' v : from m v -> from (u ++ m ++ u') v.
Proof. intros H. now apply from_r, from_l. Qed.

Lemma from_tok ty c t : class_ok [ty] (N.eqb c) = true -> (c < 128)%N -> ty <> T_UTF8NonAscii -> lexed t -> tt t = ty -> from [t] [c].
Proof.
  intros H Hc Hty L E. pose proof (tok_char ty c t H Hc Hty L E) as X. unfold from. cbn [map]. rewrite X.
  assert (Q : encode [c] = [c]); [|exact (eq_ind _ (made rd [c]) (made_copy rd c) _ Q)].
  unfold encode. cbn [flat_map]. unfold encode1. destruct (N.ltb_spec c 128); [reflexivity | lia].
Qed.

Lemma nodec_app a b : nodec (a ++ b) -> nodec a /\ nodec b.
Proof. apply Forall_app. Qed.

Lemma nodec_cons t b : nodec (t :: b) -> lexed t /\ nodec b.
Proof. intros H. split; [now apply Forall_inv in H | now apply Forall_inv_tail in H]. Qed.

Ltac nd := repeat match goal with
  | H : nodec (_ ++ _) |- _ => apply nodec_app in H as [? ?]
  | H : nodec (_ :: _) |- _ => apply nodec_cons in H as [? ?]
  end.

Lemma from_text' w : nodec w -> from w (text w).
Proof. apply from_text. Qed.

Lemma from_qcontent w v : nodec w -> r_qcontent w v -> from w v.
Proof.
  intros N. destruct 1; nd.
  - rewrite <- (app_nil_r (tok_text t)). apply (from_text [t]). repeat constructor; assumption.
  - apply (from_r [b]). rewrite <- (app_nil_r (tok_text t)). apply (from_text [t]). repeat constructor; assumption.
  - apply from_nil.
Qed.

Lemma from_qvalue w v : r_qvalue w v -> nodec w -> from w v.
Proof.
  induction 1; intros N; [apply from_nil|]. nd. apply from_app; [now apply from_text|]. apply from_app; [eapply from_qcontent; eauto | auto].
Qed.

Lemma from_qstring w v : nodec w -> r_qstring w v -> from w v.
Proof.
  intros N (q1 & m & u & q2 & -> & _ & _ & H & _). nd. apply (from_r [q1]). apply from_l. eapply from_qvalue; eauto.
Qed.

Lemma from_enc w : nodec w -> from w (encoded_word_value rd (text w)).
Proof.
  intros L. unfold encoded_word_value. destruct (word_decode rd (text w)) as [v|] eqn:E; [|now apply from_text].
  apply made_decoded. rewrite <- (text_lexed w L). exact E.
Qed.

Lemma from_encs w v : r_encs rd w v -> nodec w -> from w v.
Proof.
  induction 1; intros N; nd.
  - apply from_mid. now apply from_enc.
  - apply from_r. apply from_app; [now apply from_enc|]. apply from_r. auto.
Qed.

Lemma from_word k w v : nodec w -> r_word rd k w v -> from w v.
Proof.
  intros N. destruct 1; nd.
  - now apply from_encs.
  - apply from_mid. now apply from_text'.
  - apply from_mid. eapply from_qstring; eauto.
Qed.

Lemma from_dname ws l : Forall2 (r_ditem rd) ws l -> nodec (concat ws) -> forall w n u, from w n -> from (w ++ concat ws) (dname n u l).
Proof.
  induction 1 as [|x i ws l Hi H IH]; intros N w n u F; cbn [concat dname].
  - now rewrite app_nil_r.
  - cbn [concat] in N. nd. rewrite app_assoc. destruct Hi; cbn [dname].
    + apply IH; [assumption|]. destruct u.
      * apply from_app; [assumption | eapply from_word; eauto].
      * destruct n as [|c n].
        -- apply from_r. eapply from_word; eauto.
        -- apply from_app; [|eapply from_word; eauto]. rewrite <- (app_nil_r w). apply from_app; [assumption | apply from_space].
    + apply IH; [assumption|]. apply from_app; [assumption|]. rewrite <- (app_nil_r (tok_text t)).
      now apply (from_text' [t]).
    + apply IH; [assumption|]. now apply from_l.
Qed.

Lemma from_display w v : nodec w -> r_display rd w v -> from w v.
Proof.
  intros N (k1 & w1 & v1 & ws & l & -> & H1 & H2 & _ & ->). nd. cbn [dname].
  apply from_dname; [assumption | assumption|]. eapply from_word; eauto.
Qed.

Lemma from_obslocal w l : r_obslocal rd w l -> nodec w -> from w (join (bs ".") l).
Proof.
  induction 1 as [k w v H|k w v p w' l H Hp H' IH]; intros N; nd.
  - cbn. eapply from_word; eauto.
  - destruct H'; cbn [join] in *.
    + apply from_app; [eapply from_word; eauto|]. change (p :: w0) with ([p] ++ w0). apply from_app; [|auto].
      apply (from_tok T_Period 46%N); auto; reflexivity || discriminate.
    + apply from_app; [eapply from_word; eauto|]. change (p :: w0 ++ p0 :: w') with ([p] ++ (w0 ++ p0 :: w')). apply from_app; [|auto].
      apply (from_tok T_Period 46%N); auto; reflexivity || discriminate.
Qed.

Lemma from_local w v : nodec w -> r_local rd w v -> from w v.
Proof.
  intros N. destruct 1; nd.
  - apply from_mid. now apply from_text'.
  - apply from_mid. eapply from_qstring; eauto.
  - now apply from_obslocal.
Qed.

Lemma from_domain w v : nodec w -> r_domain w v -> from w v.
Proof. intros N. destruct 1. nd. apply from_mid. now apply from_text'. Qed.

Lemma from_addrspec w v : nodec w -> r_addrspec rd w v -> from w v.
Proof.
  intros N. destruct 1; nd; unfold at_join.
  - apply from_app; [eapply from_local; eauto|]. change (a :: wd) with ([a] ++ wd). apply from_app; [|eapply from_domain; eauto].
    apply (from_tok T_At 64%N); auto; reflexivity || discriminate.
  - apply from_app; [eapply from_local; eauto|]. change (a :: wd ++ c :: p) with ([a] ++ wd ++ c :: p). apply from_app.
    + apply (from_tok T_At 64%N); auto; reflexivity || discriminate.
    + apply from_app; [eapply from_domain; eauto|]. change (c :: p) with ([c] ++ p). apply from_app.
      * apply (from_tok T_Colon 58%N); auto; reflexivity || discriminate.
      * now apply from_text'.
Qed.

Lemma from_angle w v : nodec w -> r_angle rd w v -> from w v.
Proof.
  intros N. destruct 1; nd.
  - apply from_r, (from_r [lt]), from_l. eapply from_addrspec; eauto.
  - apply from_nil.
  - apply from_r, (from_r [lt]), from_r, from_l. eapply from_addrspec; eauto.
Qed.

Lemma off_pad u w l : read_off rd w l -> read_off rd (u ++ w) l.
Proof. intros H. destruct H; [apply off_none|]. rewrite app_assoc. now apply off_next. Qed.

Lemma off_app w l w' l' : read_off rd w l -> read_off rd w' l' -> read_off rd (w ++ w') (l ++ l').
Proof.
  intros H H'. induction H as [u|u n m rest a l Hn Hm H IH]; cbn [app]; [now apply off_pad|].
  rewrite <- !app_assoc. now apply off_next.
Qed.

Lemma off_one n m a : made rd n (a_name a) -> made rd m (a_address a) -> read_off rd (n ++ m) [a].
Proof. intros H1 H2. rewrite <- (app_nil_r m). apply (off_next rd [] n m []); auto. apply off_none. Qed.

Definition off (w : word) (l : list addr) : Prop := read_off rd (map tr w) l.

Lemma off_nil w : off w []. Proof. apply off_none. Qed.
Lemma off_r u w l : off w l -> off (u ++ w) l.
Proof. intros H. unfold off. rewrite map_app. now apply off_pad. Qed.
Lemma off_cat w l w' l' : off w l -> off w' l' -> off (w ++ w') (l ++ l').
Proof. intros H H'. unfold off. rewrite map_app. now apply off_app. Qed.
Lemma off_l u w l : off w l -> off (w ++ u) l.
Proof. intros H. rewrite <- (app_nil_r l). apply off_cat; [exact H | apply off_nil]. Qed.

Lemma off_mailbox w a : nodec w -> r_mailbox rd w a -> off w [a].
Proof.
  intros N. destruct 1; nd.
  - unfold off. rewrite map_app. apply off_one; [eapply from_display; eauto | eapply from_angle; eauto].
  - apply (off_one [] (map tr wa) (mkAddr [] a)); [apply made_nothing | eapply from_angle; eauto].
  - apply (off_one [] (map tr w) (mkAddr [] a)); [apply made_nothing | eapply from_addrspec; eauto].
Qed.

Lemma off_tail P seps w l : r_tail P seps w l -> (forall x l, nodec x -> P x l -> off x l) -> nodec w -> off w l.
Proof.
  intros H HP. induction H as [|k x l w l' Hk Hx Hw IH|k x w l' Hk Hx Hw IH]; intros N; nd.
  - apply off_nil.
  - apply (off_r [k]). apply off_cat; auto.
  - apply (off_r [k]), off_r. auto.
Qed.

Lemma off_list P seps w l : r_list P seps w l -> (forall x l, nodec x -> P x l -> off x l) -> nodec w -> off w l.
Proof.
  intros (j & x & l1 & t & l2 & -> & HJ & Hx & Ht & ->) HP N. nd. apply off_r.
  apply off_cat; [auto | eapply off_tail; eauto].
Qed.

Lemma off_address w l : nodec w -> r_address rd w l -> off w l.
Proof.
  intros N. destruct 1 as [w a H|w l H _]; [now apply off_mailbox|].
  destruct H as (q1 & wn & n & c & wl & q2 & sc & u & -> & _ & _ & _ & H & _). nd.
  apply off_r, off_r, (off_r [c]), off_l. destruct H as [|w l H|w H|w H]; try apply off_nil.
  eapply off_list; [exact H | | assumption]. intros x l' Nx [a [Ha ->]]. now apply off_mailbox.
Qed.

Lemma off_addresses w l : nodec w -> r_list (r_address rd) [T_Comma; T_Semicolon] w l -> off w l.
Proof. intros N H. eapply off_list; [exact H | | assumption]. intros. now apply off_address. Qed.
End MADE.

(** * C59 *)
Theorem C59_read_off : forall e s sl, ParseAddressList e s = Ret sl None ->
  read_off (reader (wenv_of e)) (kept s) (elems sl).
Proof.
  intros e s sl H. destruct s as [|b s]; [cbn in H; injection H as <-; apply off_none|].
  apply reading in H as [L R]; [|discriminate]. apply off_addresses in R; [|exact L].
  unfold off, toks in R. rewrite map_tr_tok_of in R. exact R.
Qed.

(** * C21: the text is valid UTF-8 apart from what encoded words stand for *)
Lemma valid_pieces rd u v : made rd u v -> Forall valid_rune u -> forall s, part u s -> valid_but_decoded rd s v.
Proof.
  induction 1 as [u|r| |u v D|u1 u2 v1 v2 H1 IH1 H2 IH2]; intros V s P.
  - exists []. split; [reflexivity | constructor].
  - exists [encode [r]]. split; [cbn [concat]; now rewrite app_nil_r|]. constructor; [|constructor]. left. exists [r]. auto.
  - exists [bs " "]. split; [reflexivity|]. constructor; [|constructor]. left. exists [32%N]. split; [constructor; [left; reflexivity | constructor] | reflexivity].
  - exists [v]. split; [cbn [concat]; now rewrite app_nil_r|]. constructor; [|constructor]. right. exists u. auto.
  - apply Forall_app in V as [V1 V2]. destruct P as (x & y & ->).
    destruct (IH1 V1 (x ++ (u1 ++ u2) ++ y)) as (l1 & -> & F1); [exists x, (u2 ++ y); now rewrite <- !app_assoc|].
    destruct (IH2 V2 (x ++ (u1 ++ u2) ++ y)) as (l2 & -> & F2); [exists (x ++ u1), y; now rewrite <- !app_assoc|].
    exists (l1 ++ l2). split; [now rewrite concat_app|]. now apply Forall_app.
Qed.

Lemma valid_list rd u l : read_off rd u l -> Forall valid_rune u -> forall s, part u s ->
  Forall (fun a => valid_but_decoded rd s (a_name a) /\ valid_but_decoded rd s (a_address a)) l.
Proof.
  induction 1 as [u|u n m rest a l Hn Hm H IH]; intros V s (x & y & ->); constructor.
  - apply Forall_app in V as [_ V]. apply Forall_app in V as [V1 V]. apply Forall_app in V as [V2 _]. split.
    + apply (valid_pieces rd n); auto. exists (x ++ u), (m ++ rest ++ y). now rewrite <- !app_assoc.
    + apply (valid_pieces rd m); auto. exists (x ++ u ++ n), (rest ++ y). now rewrite <- !app_assoc.
  - apply IH.
    + apply Forall_app in V as [_ V]. apply Forall_app in V as [_ V]. now apply Forall_app in V as [_ V].
    + exists (x ++ u ++ n ++ m), y. now rewrite <- !app_assoc.
Qed.

Theorem C21_valid_utf8 : forall e s sl, bytes s -> ParseAddressList e s = Ret sl None ->
  Forall (fun a => valid_but_decoded (reader (wenv_of e)) (kept s) (a_name a) /\ valid_but_decoded (reader (wenv_of e)) (kept s) (a_address a)) (elems sl).
Proof.
  intros e s sl B H. apply (valid_list _ (kept s)); [now apply C59_read_off| |exists [], []; now rewrite app_nil_r].
  apply decode_valid in B. unfold kept. rewrite Forall_forall in *. intros r Hr. apply filter_In in Hr as [Hr _]. now apply B.
Qed.

(** The shape of the Address, with the exact form of the domain. *)
Theorem C21_exact_shape : forall e s sl, bytes s -> ParseAddressList e s = Ret sl None ->
  Forall (fun a => a_address a = [] \/
    exists l d p, a_address a = l ++ bs "@" ++ encode (d ++ p) /\
      (dot_atom d \/ exists b, d = bs "[" ++ b ++ bs "]" /\ literal_body b) /\ port_suffix p /\ Forall valid_rune (d ++ p)) (elems sl).
Proof. exact all_shapes. Qed.

(** An encoded word may stand for bytes that are not UTF-8. *)
Example C21_decoded_bytes : ParseAddressList env0 (bs "=?utf-8?q?=FF?= <a@b>") = Ret (Some [mkAddr [255%N] (bs "a@b")]) None.
Proof. vm_compute. reflexivity. Qed.

Example C59_met : ParseAddressList env0 (bs "=?utf-8?q?A=42?=  ""C D"" <a . b@[x]:1>,, e@f") =
  Ret (Some [mkAddr (bs "AB C D") (bs "a.b@[x]:1"); mkAddr [] (bs "e@f")]) None.
Proof. vm_compute. reflexivity. Qed.
