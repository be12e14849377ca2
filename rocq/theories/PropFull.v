(** Address lists written as in EncText.v are accepted and mean what EncText.v says. *)
From Coq Require Import String List NArith ZArith Bool Arith Lia.
From Verif Require Import Lexer Grammar Utf8 Strs Mime GoTime Parser Walker Api Spec ParserFacts
  WalkerFacts Static Total Cfws LangFacts LexFacts Utf8Facts First DateSpec AddrSpec Chosen AddrSem CharFacts PropApi PropInv
  ScanSpec ScanFacts ScanEnc ScanWords ScanName AddrText TextLang TextScan PropText EncText EncAlign EncSel EncBox EncList EncConv.
Import ListNotations.

Theorem C51_encoded_words_any_text : forall (e : env) (s : gostring) (l : list addr),
  full_list (reader (wenv_of e)) (decode s) l -> ParseAddressList e s = Ret (Some l) None.
Proof.
  intros e s l H. remember (decode s) as x eqn:D. symmetry in D.
  destruct (full_tlist (wenv_of e) x l H) as (B & Nx & Nl & T).
  assert (Hs : s <> []) by (intros ->; cbn in D; congruence).
  assert (Et : tokens e s = toks x ++ [eof_tok]) by now apply tokens_text.
  assert (F : Forall lx (toks x ++ [eof_tok])).
  { apply Forall_app. split; [apply lexed_lx; now apply toks_lexed_bmp|]. constructor; [now right | constructor]. }
  destruct (parse_address_list_cases e s) as [[K _]|[(_ & K & _)|(_ & ch & S & Dr & Y & Ok & P)]]; [contradiction | |].
  - exfalso. apply K. rewrite Et. now apply (list_lang (wenv_of e) (toks x) l).
  - rewrite P. rewrite Et in S. pose proof (list_sel (wenv_of e) (toks x) l ch T F S) as E.
    destruct (list_value (wenv_of e) ch) as [l0|]; [cbn in E; now subst|]. exfalso. apply Nl. symmetry. exact E.
Qed.

(** The hypotheses are met: encoded words with commas, brackets, quotes and parentheses. *)
Definition full_text : list rune := bs "=?utf-8?Q?Smith,_=22J.=22_<x@y>?= =?utf-8?q?_(a;b:c)?= ""Q. R"" (c) Jr <a.b@[::1]>;""l l""@d (x), <p@q:25>".
Definition full_value : list addr :=
  [mkAddr (bs "Smith, ""J."" <x@y> (a;b:c) Q. R Jr") (bs "a.b@[::1]"); mkAddr [] (bs "l l@d"); mkAddr [] (bs "p@q:25")].

Lemma space_gap1 : ogap (bs " ").
Proof. right. left. apply fold_plain; [discriminate | repeat constructor]. Qed.

Lemma comment_gap : ogap (bs " (c) ").
Proof.
  right. right. apply (cs_one (bs " ") (bs "(c)") (bs " ")); [right; apply fold_plain; [discriminate | repeat constructor] | | right; apply fold_plain; [discriminate | repeat constructor]].
  exists (bs "c"). split; [reflexivity|]. apply (cb_char [] 99%N []); [now left | reflexivity | apply cb_end; now left].
Qed.

Lemma atom1 a : forallb atext_char a = true -> a <> [] -> atom a.
Proof. intros H N. split; [exact N|]. apply Forall_forall. now apply forallb_forall. Qed.

Lemma dot1 a : forallb atext_char a = true -> a <> [] -> dot_atom a.
Proof. intros H N. exists [a]. split; [discriminate|]. split; [constructor; [now apply atom1 | constructor]|]. left. cbn. now rewrite ?app_nil_r. Qed.

Lemma no_intro1 x : forallb (fun r => negb (r =? 61)%N) x = true -> no_intro x.
Proof.
  intros H p q ->. rewrite !forallb_app in H. cbn in H. rewrite andb_false_r in H. discriminate H.
Qed.

Lemma enc_check c e t : forallb enc_token_char c = true -> forallb enc_token_char e = true -> forallb enc_char t = true -> c <> [] -> e <> [] -> t <> [] ->
  full_encoded_word (bs "=?" ++ c ++ bs "?" ++ e ++ bs "?" ++ t ++ bs "?=").
Proof.
  intros C E T Nc Ne Nt'. exists c, e, t. split; [reflexivity|].
  split; [split; [exact Nc | apply Forall_forall; now apply forallb_forall]|]. split; [split; [exact Ne | apply Forall_forall; now apply forallb_forall]|].
  split; [exact Nt' | apply Forall_forall; now apply forallb_forall].
Qed.

Definition name1 : list (list rune * item) :=
  [([], IEnc [bs "=?utf-8?Q?Smith,_=22J.=22_<x@y>?="]); (bs " ", IEnc [bs "=?utf-8?q?_(a;b:c)?="]);
   (bs " ", IQuoted (bs """Q. R""") (bs "Q. R")); (bs " (c) ", IAtom (bs "Jr"))].

Lemma name1_ok : full_name name1.
Proof.
  split; [discriminate|]. cbn [name1 full_items full_item is_run].
  split; [now left|]. split.
  { split; [discriminate|]. constructor; [|constructor]. apply (enc_check (bs "utf-8") (bs "Q") (bs "Smith,_=22J.=22_<x@y>")); (reflexivity || discriminate). }
  split; [discriminate|]. split; [apply space_gap1|]. split.
  { split; [discriminate|]. constructor; [|constructor]. apply (enc_check (bs "utf-8") (bs "q") (bs "_(a;b:c)")); (reflexivity || discriminate). }
  split; [discriminate|]. split; [apply space_gap1|]. split.
  { exists (bs "Q. R"). split; [reflexivity|]. apply (qb_char [] 81%N (bs ". R") (bs ". R")); [now left | reflexivity|]. apply (qb_char [] 46%N (bs " R") (bs " R")); [now left | reflexivity|].
    apply (qb_char (bs " ") 82%N [] []); [right; apply fold_plain; [discriminate | repeat constructor] | reflexivity | apply qb_end; now left]. }
  split; [discriminate|]. split; [apply comment_gap|]. split; [split; [now apply atom1 | now apply no_intro1]|]. split; [discriminate | exact Logic.I].
Qed.

Example C51_met : forall rd, full_list rd full_text full_value.
Proof.
  intros rd. apply (fl_more rd (bs "=?utf-8?Q?Smith,_=22J.=22_<x@y>?= =?utf-8?q?_(a;b:c)?= ""Q. R"" (c) Jr <a.b@[::1]>") (mkAddr (bs "Smith, ""J."" <x@y> (a;b:c) Q. R Jr") (bs "a.b@[::1]")) 59%N
    (bs """l l""@d (x), <p@q:25>") [mkAddr [] (bs "l l@d"); mkAddr [] (bs "p@q:25")]); [|now right|].
  { apply (fm_named rd name1 (bs " ") (bs "a.b@[::1]") (bs "a.b@[::1]") []); [apply name1_ok | apply space_gap1 | | now left].
    left. apply (ts (bs "a.b") (bs "a.b") (bs "[::1]")).
    - apply (tl_dot (bs "a.b")); [|now apply no_intro1]. exists [bs "a"; bs "b"]. split; [discriminate|]. split; [repeat (constructor; [now apply atom1|]); constructor|]. left. reflexivity.
    - apply (dm_literal (bs "::1")). do 3 (apply (lb_char []); [now left | reflexivity|]). apply lb_end. now left. }
  apply (fl_more rd (bs """l l""@d (x)") (mkAddr [] (bs "l l@d")) 44%N (bs " <p@q:25>") [mkAddr [] (bs "p@q:25")]); [|now left|].
  { apply (fm_spec rd [] (bs """l l""@d") (bs "l l@d") (bs " (x)")); [now left | |].
    - apply (ts (bs """l l""") (bs "l l") (bs "d")); [|apply dm_dot; [now apply dot1 | now apply no_intro1]].
      apply (tl_quoted (bs """l l""") (bs "l l")). exists (bs "l l"). split; [reflexivity|]. apply (qb_char [] 108%N (bs " l") (bs " l")); [now left | reflexivity|].
      apply (qb_char (bs " ") 108%N [] []); [right; apply fold_plain; [discriminate | repeat constructor] | reflexivity | apply qb_end; now left].
    - right. right. apply (cs_one (bs " ") (bs "(x)") []); [right; apply fold_plain; [discriminate | repeat constructor] | | now left].
      exists (bs "x"). split; [reflexivity|]. apply (cb_char [] 120%N []); [now left | reflexivity | apply cb_end; now left]. }
  apply fl_one. apply (fm_angle rd (bs " ") (bs "p@q:25") (bs "p@q:25") []); [apply space_gap1 | | now left].
  right. apply (ps (bs "p") (bs "p") (bs "q") (bs "25")); [apply (tl_dot (bs "p")); [now apply dot1 | now apply no_intro1] | apply dm_dot; [now apply dot1 | now apply no_intro1]|].
  split; [discriminate | repeat constructor].
Qed.

(** Names with periods or at-signs outside quotes are left out for a reason: such a text can have
    another reading, in which the encoded word is cut in two, and then that one is used. *)
Theorem C51_marks : ParseAddressList env0 (bs "=?utf-8?Q?a<x@y>,b?= J. <b@c>") =
  Ret (Some [mkAddr (bs "=?utf-8?Q?a") (bs "x@y"); mkAddr (bs "b?= J.") (bs "b@c")]) None.
Proof. vm_compute. reflexivity. Qed.
