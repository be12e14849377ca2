(** C76: the parentheses of an accepted text pair up. *)
From Coq Require Import String List NArith ZArith Bool Arith Lia.
From Verif Require Import Lexer Grammar Utf8 Strs Mime GoTime Parser Walker Api Spec ParserFacts
  WalkerFacts Static Total Cfws LangFacts LexFacts Utf8Facts First DateSpec Dates DateText AddrSpec Chosen AddrSem CharFacts PropApi PropInv PropDate
  ScanSpec AddrText MboxList TextLang EncText EncConv PropStable DateAccept AcceptText AcceptFacts PropAccept PropApart.
Import ListNotations.
Local Open Scope text_scope.

(** ** Specification *)
(** [closed n x]: reading [x] after [n] open parentheses, every ')' closes one and none is open at the end.  Within
    parentheses a backslash takes the next character with it. *)
Fixpoint closed (n : nat) (x : list rune) : bool :=
  match x with
  | [] => Nat.eqb n 0
  | r :: x' =>
      if N.eqb r 40 then closed (S n) x'
      else if N.eqb r 41 then match n with O => false | S k => closed k x' end
      else if N.eqb r 92 && negb (Nat.eqb n 0) then match x' with _ :: x'' => closed n x'' | [] => false end
      else closed n x'
  end.
(** Texts without double quote, opening bracket and equals sign: no quoted strings, literals and encoded words. *)
Definition simple (r : rune) : Prop := ~ In r [34; 91; 61]%N.

(** ** Proofs *)
Definition dull (r : rune) : Prop := r <> 40%N /\ r <> 41%N /\ r <> 92%N.
Lemma closed_dull u : Forall dull u -> forall n y, closed n (u ++ y) = closed n y.
Proof.
  induction 1 as [|r u (H1 & H2 & H3) H IH]; intros n y; [reflexivity|]. cbn [app closed].
  apply N.eqb_neq in H1, H2, H3. rewrite H1, H2, H3. apply IH.
Qed.
Lemma closed_level u : (forall r, In r u -> r <> 40%N /\ r <> 41%N) -> forall y, closed 0 (u ++ y) = closed 0 y.
Proof.
  induction u as [|r u IH]; intros H y; [reflexivity|]. cbn [app closed]. destruct (H r (or_introl eq_refl)) as [H1 H2].
  apply N.eqb_neq in H1, H2. rewrite H1, H2, andb_false_r. apply IH. intros r' Hr. apply H. now right.
Qed.
Ltac dull := unfold dull; repeat split; discriminate.
Lemma blank_dull r : blank_char r = true -> dull r.
Proof. unfold blank_char. intros H. apply orb_true_iff in H as [H|H]; apply N.eqb_eq in H; subst; dull. Qed.
Lemma blanks_dull a : blanks a -> Forall dull a.
Proof. apply Forall_impl, blank_dull. Qed.
Lemma fold_dull u : fold u -> Forall dull u.
Proof.
  intros [a N H|a b Ha N Hb]; [now apply blanks_dull|]. repeat (apply Forall_app; split); auto using blanks_dull. repeat constructor; dull.
Qed.
Lemma ofold_dull u : optional fold u -> Forall dull u.
Proof. intros [->|H]; [constructor | now apply fold_dull]. Qed.
Lemma comment_char_dull r : comment_char r = true -> dull r.
Proof. unfold comment_char. intros H. apply andb_true_iff in H as [_ H]. unfold dull. repeat split; intros ->; discriminate. Qed.
Lemma body_closed b : comment_body b -> forall n y, closed (S n) (b ++ [41%N] ++ y) = closed n y.
Proof.
  induction 1 as [u Hu|u r b Hu Hr Hb IH|u r b Hu Hr Hb IH|u c b Hu Hc IHc Hb IHb]; intros n y.
  - rewrite (closed_dull u (ofold_dull u Hu)). reflexivity.
  - rewrite <- !app_assoc. rewrite (closed_dull u (ofold_dull u Hu)). rewrite (closed_dull [r]) by (constructor; [now apply comment_char_dull | constructor]). apply IH.
  - rewrite <- !app_assoc. rewrite (closed_dull u (ofold_dull u Hu)). cbn [app closed N.eqb Pos.eqb andb negb Nat.eqb]. apply IH.
  - rewrite <- !app_assoc. rewrite (closed_dull u (ofold_dull u Hu)). change (bs "(" ++ c ++ bs ")" ++ b ++ [41%N] ++ y) with (40%N :: (c ++ [41%N] ++ (b ++ [41%N] ++ y))).
    cbn [closed]. change (N.eqb 40 40) with true. cbn iota. rewrite IHc. apply IHb.
Qed.

Section CLEAR.
Variable ok : rune -> Prop.
Definition clear (P : texts) : Prop := forall x, P x -> Forall ok x -> forall y, closed 0 (x ++ y) = closed 0 y.
Lemma clear_cat P Q : clear P -> clear Q -> clear (P ;; Q).
Proof. intros HP HQ x (u & v & -> & Hu & Hv) K y. apply Forall_app in K as [Ku Kv]. rewrite <- app_assoc, HP by auto. now apply HQ. Qed.
Lemma clear_either P Q : clear P -> clear Q -> clear (P <|> Q).
Proof. intros HP HQ x [H|H] K y; auto. Qed.
Lemma clear_optional P : clear P -> clear (optional P).
Proof. intros HP x [->|H] K y; [reflexivity | auto]. Qed.
Lemma clear_many P : clear P -> clear (many P).
Proof. intros HP x H. induction H as [|u v Hu Hv IH]; intros K y; [reflexivity|]. apply Forall_app in K as [Ku Kv]. rewrite <- app_assoc, HP by auto. auto. Qed.
Lemma clear_chars (P : texts) : (forall x, P x -> forall r, In r x -> r <> 40%N /\ r <> 41%N) -> clear P.
Proof. intros H x Hx _. apply closed_level, H, Hx. Qed.
Lemma clear_never (P : texts) : (forall x, P x -> ~ Forall ok x) -> clear P.
Proof. intros H x Hx K. destruct (H x Hx K). Qed.
Lemma clear_fold : clear fold.
Proof. intros x Hx _ y. now apply closed_dull, fold_dull. Qed.
Lemma clear_comment : clear comment.
Proof. intros x (b & -> & Hb) _ y. rewrite <- !app_assoc. cbn [bs list_ascii_of_string map app closed]. change (closed 1 (b ++ [41%N] ++ y) = closed 0 y). now apply body_closed. Qed.
Lemma clear_comments : clear comments.
Proof.
  intros x H _. assert (C : forall c y, comment c -> closed 0 (c ++ y) = closed 0 y).
  { intros c y (b & -> & Hb). rewrite <- !app_assoc. change (closed 1 (b ++ [41%N] ++ y) = closed 0 y). now apply body_closed. }
  induction H as [u c u' Hu Hc Hu'|u c x Hu Hc Hx IH]; intros y; rewrite <- !app_assoc.
  - rewrite (closed_dull u (ofold_dull u Hu)), C by exact Hc. apply closed_dull, ofold_dull, Hu'.
  - rewrite (closed_dull u (ofold_dull u Hu)), C by exact Hc. apply IH.
Qed.
Lemma clear_gap : clear ogap.
Proof. intros x [->|[H|H]] K y; [reflexivity | now apply clear_fold | now apply clear_comments]. Qed.
Lemma clear_one (p : rune -> bool) : p 40%N = false -> p 41%N = false -> clear (one p).
Proof. intros H1 H2. apply clear_chars. intros x (r & -> & H) r' [<-|[]]. split; congruence. Qed.
Lemma clear_lit s : forallb (fun r => negb (N.eqb r 40) && negb (N.eqb r 41)) (bs s) = true -> clear (lit s).
Proof.
  intros H. apply clear_chars. intros x Hx r Hr. unfold lit in Hx. subst x. rewrite forallb_forall in H. specialize (H r Hr).
  apply andb_true_iff in H as [H1 H2]. apply negb_true_iff, N.eqb_neq in H1, H2. auto.
Qed.
Lemma clear_named l : Forall (Forall (fun c => 97 <= c <= 122)%N) l -> clear (named l).
Proof.
  intros Hl. apply clear_chars. intros x Hx r Hr. pose proof (lower_letters _ _ Hx Hl) as F. rewrite Forall_forall in F. specialize (F r Hr). apply good_letter in F as [F _].
  split; intros ->; discriminate F.
Qed.
End CLEAR.

Ltac clear_step :=
  match goal with
  | |- clear _ (cat _ _) => apply clear_cat
  | |- clear _ (either _ _) => apply clear_either
  | |- clear _ (optional _) => apply clear_optional
  | |- clear _ (many _) => apply clear_many
  end.
Lemma clear_dates : clear (fun _ => True) date_texts.
Proof.
  assert (D : clear (fun _ => True) digit) by (apply clear_one; reflexivity).
  pose proof (clear_gap (fun _ => True)) as G. pose proof (clear_fold (fun _ => True)) as F.
  unfold date_texts.
  repeat first [ exact D | exact G | exact F | clear_step
    | apply clear_lit; reflexivity | apply clear_named; first [exact day_names_letters | exact month_names_letters | exact zone_names_letters] ].
Qed.

Lemma atext_level r : atext_char r = true -> r <> 40%N /\ r <> 41%N.
Proof. intros H. split; intros ->; vm_compute in H; discriminate. Qed.
Lemma dots_level d : dot_atom d -> forall r, In r d -> r <> 40%N /\ r <> 41%N.
Proof.
  assert (J : forall l, Forall atom l -> forall r, In r (join (bs ".") l) -> r <> 40%N /\ r <> 41%N).
  { induction l as [|a [|b l] IH]; intros H r Hr; inversion H as [|? ? [_ Ha] Hl]; subst; [destruct Hr | |].
    - cbn [join] in Hr. rewrite Forall_forall in Ha. apply atext_level, Ha, Hr.
    - change (join (bs ".") (a :: b :: l)) with (a ++ bs "." ++ join (bs ".") (b :: l)) in Hr. apply in_app_or in Hr as [Hr|Hr]; [rewrite Forall_forall in Ha; apply atext_level, Ha, Hr|].
      apply in_app_or in Hr as [[<-|[]]|Hr]; [split; discriminate | exact (IH Hl r Hr)]. }
  intros (l & _ & H & [->| ->]) r Hr; [exact (J l H r Hr)|]. apply in_app_or in Hr as [Hr|[<-|[]]]; [exact (J l H r Hr) | split; discriminate].
Qed.
Lemma not_simple (P : texts) c : In c [34; 91; 61]%N -> (forall x, P x -> In c x) -> clear simple P.
Proof. intros Hc H. apply clear_never. intros x Hx K. rewrite Forall_forall in K. exact (K c (H x Hx) Hc). Qed.
Lemma clear_lists : clear simple address_list_texts.
Proof.
  pose proof (clear_gap simple) as G. pose proof (clear_fold simple) as F. pose proof (clear_comment simple) as C.
  assert (Q : clear simple quoted_string) by (apply (not_simple _ 34%N); [cbn; auto|]; intros x (t & b & -> & _); cbn; auto).
  assert (E : clear simple full_encoded_word) by (apply (not_simple _ 61%N); [cbn; auto|]; intros x (c & e & t & -> & _); cbn; auto).
  assert (A : clear simple atom) by (apply clear_chars; intros x [_ H] r Hr; rewrite Forall_forall in H; apply atext_level, H, Hr).
  assert (T : clear simple (one atext_char)) by (apply clear_one; reflexivity).
  assert (D : clear simple digit) by (apply clear_one; reflexivity).
  assert (DA : clear simple dot_atom) by (apply clear_chars; exact dots_level).
  assert (L : clear simple (lit "[" ;; literal_body ;; lit "]")) by (apply (not_simple _ 91%N); [cbn; auto|]; intros x (u & v & -> & -> & _); cbn; auto).
  unfold address_list_texts, one_address, group_texts, mailbox_texts, angle_texts, route_texts, spec_texts, domain_texts, local_texts, word_texts, name_texts, name_start.
  repeat first [ exact G | exact F | exact C | exact Q | exact E | exact A | exact T | exact D | exact DA | exact L | clear_step
    | apply clear_lit; reflexivity ].
Qed.

(** ** Theorem *)
(** An accepted date never ends inside a comment and never closes one that is not open, and neither does an accepted
    address list without quoted strings, literals and encoded words.  (In those, parentheses are characters like others.) *)
Theorem C76_comments_are_complete : forall e s, s <> [] ->
  (forall t, ParseDateTime e s = Ret t None -> closed 0 (kept s) = true) /\
  (forall l, ParseAddressList e s = Ret l None -> Forall simple (kept s) -> closed 0 (kept s) = true).
Proof.
  intros e s N. split.
  - intros t H. destruct (proj1 (C57_accepted_dates e s N) (ex_intro _ t H)) as [D _].
    rewrite <- (app_nil_r (kept s)). rewrite (clear_dates _ D); [reflexivity|]. apply Forall_forall. auto.
  - intros l H K. destruct (proj1 (C56_accepted_address_lists e s N) (ex_intro _ l H)) as [D _].
    rewrite <- (app_nil_r (kept s)). rewrite (clear_lists _ D K). reflexivity.
Qed.

(** Hence an input that does is rejected, whatever else it holds. *)
Theorem C76_incomplete_is_rejected : forall e s, closed 0 (kept s) = false ->
  (exists er, ParseDateTime e s = Ret zero_time (Some er)) /\
  (Forall simple (kept s) -> exists er, ParseAddressList e s = Ret None (Some er)).
Proof.
  intros e s H. assert (N : s <> []) by (intros ->; discriminate H). destruct (C76_comments_are_complete e s N) as [HD HA]. split.
  - destruct (C02_date_time_contract e s) as [[t R]|R]; [|exact R]. rewrite (HD t R) in H. discriminate.
  - intros K. destruct (C01_address_list_contract e s) as [[l R]|R]; [|exact R]. rewrite (HA l R K) in H. discriminate.
Qed.

(** The condition is needed, and can be met. *)
Example C76_met : ParseAddressList env0 (bs "(a (b\)) c) d@e") = Ret (Some [mkAddr [] (bs "d@e")]) None /\ Forall simple (kept (bs "(a (b\)) c) d@e")) /\
  closed 0 (kept (bs "(a (b)) c) d@e")) = false /\
  ParseAddressList env0 (bs """("" <d@e>") = Ret (Some [mkAddr (bs "(") (bs "d@e")]) None /\ closed 0 (kept (bs """("" <d@e>")) = false.
Proof.
  split; [vm_compute; reflexivity|]. split; [|repeat split; vm_compute; reflexivity].
  apply Forall_forall. intros r H. assert (B : forallb (fun r => negb (existsb (N.eqb r) [34; 91; 61]%N)) (kept (bs "(a (b\)) c) d@e")) = true) by (vm_compute; reflexivity).
  rewrite forallb_forall in B. specialize (B r H). apply negb_true_iff in B. intros K. apply not_true_iff_false in B. apply B. apply existsb_exists. exists r. split; [exact K | apply N.eqb_refl].
Qed.
