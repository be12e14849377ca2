(** C60: which lists may be joined. *)
From Coq Require Import String List NArith ZArith Bool Arith Lia.
From Verif Require Import Lexer Grammar Utf8 Strs Mime GoTime Parser Walker Api Utf8Facts DateSpec AddrSpec AddrText PropApi PropInv
  ScanSpec ScanFacts ScanList PropScan PropJoin AcceptText PropAccept.
Import ListNotations.
Local Open Scope N_scope.

Lemma byte_kept c s : ascii c -> In c (kept s) -> In c s.
Proof.
  assert (G : forall l : list N, In c l <-> (0 < count_byte c l)%nat).
  { induction l as [|x l IH]; [cbn; split; [tauto | lia]|]. unfold count_byte in *. cbn [filter In].
    destruct (N.eqb_spec c x) as [->|D]; cbn [length]; [split; [lia | auto]|]. rewrite <- IH. split; [intros [E|E]; [congruence | exact E] | auto]. }
  intros H K. apply G. rewrite <- (count_kept c s H). now apply G.
Qed.

Definition list_by_comma : texts := cat (many (cat ogap (lit ","))) (cat one_address (many (cat (lit ",") (either one_address ogap)))).
Definition list_plain : texts := cat one_address (many (cat (either (lit ",") (lit ";")) one_address)).

Lemma is_list x : address_list_texts x <-> list_plain x \/ list_by_comma x.
Proof. reflexivity. Qed.

Lemma many_app P x y : many P x -> many P y -> many P (x ++ y).
Proof. induction 1 as [|u v Hu H IH]; intros Hy; [exact Hy|]. rewrite <- app_assoc. apply many_more; auto. Qed.

Lemma no_gap : ogap [].
Proof. now left. Qed.

(** Without semicolons or without commas the two forms of a list are related. *)
Lemma by_comma x : list_plain x \/ list_by_comma x -> ~ In 59 x -> list_by_comma x.
Proof.
  intros [H|H] N; [|exact H]. destruct H as (a & t & -> & Ha & Ht). exists [], (a ++ t). split; [reflexivity|]. split; [apply many_none|].
  exists a, t. split; [reflexivity|]. split; [exact Ha|]. assert (Nt : ~ In 59 t) by (intros K; apply N; apply in_app_iff; auto). clear N Ha.
  induction Ht as [|u v Hu Hv IH]; [apply many_none|]. apply many_more; [|apply IH; intros K; apply Nt; apply in_app_iff; auto].
  destruct Hu as (k & b & -> & [Hk|Hk] & Hb); [exists k, b; split; [reflexivity|]; split; [exact Hk | left; exact Hb]|].
  exfalso. apply Nt. rewrite Hk. now left.
Qed.

Lemma by_any x : list_plain x \/ list_by_comma x -> ~ In 44 x -> list_plain x.
Proof.
  intros [H|H] N; [exact H|]. destruct H as (j & y & -> & Hj & a & t & -> & Ha & Ht).
  destruct Hj as [|u v (g & k & -> & _ & ->) _]; [|exfalso; apply N; rewrite !in_app_iff; left; left; right; now left].
  destruct Ht as [|u v (k & b & -> & -> & _) _]; [|exfalso; apply N; rewrite !in_app_iff; right; right; left; left; now left].
  exists a, []. split; [reflexivity|]. split; [exact Ha | apply many_none].
Qed.

Lemma comma_lead x : list_by_comma x -> list_by_comma (bs "," ++ x).
Proof.
  intros (j & y & -> & Hj & H). exists (bs "," ++ j), y. split; [now rewrite <- app_assoc|]. split; [|exact H].
  apply many_more; [|exact Hj]. exists [], (bs ","). split; [reflexivity|]. split; [exact no_gap | reflexivity].
Qed.

Lemma comma_trail x : list_by_comma x -> list_by_comma (x ++ bs ",").
Proof.
  intros (j & y & -> & Hj & a & t & -> & Ha & Ht). exists j, (a ++ t ++ bs ","). split; [now rewrite <- !app_assoc|]. split; [exact Hj|].
  exists a, (t ++ bs ","). split; [reflexivity|]. split; [exact Ha|]. apply many_app; [exact Ht|].
  rewrite <- (app_nil_r (bs ",")). apply many_more; [|apply many_none]. exists (bs ","), []. split; [reflexivity|]. split; [reflexivity | right; exact no_gap].
Qed.

Lemma comma_join x y : list_by_comma x -> list_by_comma y -> list_by_comma (x ++ bs "," ++ y).
Proof.
  intros (j & y1 & -> & Hj & a & t & -> & Ha & Ht) (j' & y2 & -> & Hj' & a' & t' & -> & Ha' & Ht').
  exists j, (a ++ t ++ bs "," ++ j' ++ a' ++ t'). split; [now rewrite <- !app_assoc|]. split; [exact Hj|].
  exists a, (t ++ bs "," ++ j' ++ a' ++ t'). split; [reflexivity|]. split; [exact Ha|]. apply many_app; [exact Ht|].
  induction Hj' as [|u v (g & k & -> & Hg & ->) _ IH].
  - cbn [app]. rewrite app_assoc. apply many_more; [|exact Ht']. exists (bs ","), a'. split; [reflexivity|]. split; [reflexivity | left; exact Ha'].
  - replace (bs "," ++ ((g ++ bs ",") ++ v) ++ a' ++ t') with ((bs "," ++ g) ++ bs "," ++ v ++ a' ++ t') by (now rewrite <- !app_assoc).
    apply many_more; [|exact IH]. exists (bs ","), g. split; [reflexivity|]. split; [reflexivity | right; exact Hg].
Qed.

Lemma plain_join x y k : (lit "," k \/ lit ";" k) -> list_plain x -> list_plain y -> list_plain (x ++ k ++ y).
Proof.
  intros Hk (a & t & -> & Ha & Ht) (a' & t' & -> & Ha' & Ht'). exists a, (t ++ k ++ a' ++ t'). split; [now rewrite <- !app_assoc|]. split; [exact Ha|].
  apply many_app; [exact Ht|]. rewrite app_assoc. apply many_more; [|exact Ht']. exists k, a'. auto.
Qed.

Lemma lexes_join e a b c : c < 128 -> lexes e a -> lexes e b -> lexes e (a ++ c :: b).
Proof.
  intros Hc Ha Hb E. rewrite decode_split by exact Hc. apply Forall_app. split; [now apply Ha|]. constructor; [lia | now apply Hb].
Qed.

Lemma kept_join a b c : c < 128 -> kept (a ++ c :: b) = kept a ++ c :: kept b.
Proof.
  intros H. unfold kept. rewrite decode_split by exact H. rewrite filter_app. cbn [filter]. replace (bmp c) with true; [reflexivity|].
  symmetry. unfold bmp. apply N.leb_le. lia.
Qed.

Lemma accepted_texts e s l : s <> [] -> ParseAddressList e s = Ret l None -> (list_plain (kept s) \/ list_by_comma (kept s)) /\ lexes e s.
Proof. intros N H. apply (C56_accepted_address_lists e s N). eauto. Qed.

Lemma texts_accepted e s : s <> [] -> list_plain (kept s) \/ list_by_comma (kept s) -> lexes e s -> exists l, ParseAddressList e s = Ret l None.
Proof. intros N H L. apply (C56_accepted_address_lists e s N). auto. Qed.

(** C60: without semicolons, by a comma; an empty input on one side is allowed. *)
Theorem C60_join_by_comma : forall e a b la lb, ~ In 59 a -> ~ In 59 b -> a <> [] \/ b <> [] ->
  ParseAddressList e a = Ret la None -> ParseAddressList e b = Ret lb None ->
  exists l, ParseAddressList e (a ++ bs "," ++ b) = Ret l None.
Proof.
  intros e a b la lb Na Nb Ne Ha Hb. apply texts_accepted; [destruct a; discriminate| |].
  - right. change (bs "," ++ b) with (44 :: b). rewrite kept_join by lia. change (44 :: kept b) with (bs "," ++ kept b).
    destruct a as [|c a].
    + destruct Ne as [Ne|Ne]; [congruence|]. apply comma_lead, by_comma; [now apply (accepted_texts e b lb)|]. intros K. apply Nb. now apply byte_kept.
    + assert (A : list_by_comma (kept (c :: a))) by (apply by_comma; [apply (accepted_texts e _ la); [discriminate | exact Ha] | intros K; apply Na; now apply byte_kept]).
      destruct b as [|c' b]; [exact (comma_trail _ A)|]. apply comma_join; [exact A|].
      apply by_comma; [apply (accepted_texts e _ lb); [discriminate | exact Hb] | intros K; apply Nb; now apply byte_kept].
  - assert (L : forall s l, ParseAddressList e s = Ret l None -> lexes e s) by (intros [|k s] l H; [intros _; constructor | apply (accepted_texts e _ l); [discriminate | exact H]]).
    apply (lexes_join e a b 44); [lia | eapply L; eauto | eapply L; eauto].
Qed.

(** Without commas, by a comma or by a semicolon. *)
Theorem C60_join_by_semicolon : forall e a b la lb, ~ In 44 a -> ~ In 44 b -> a <> [] -> b <> [] ->
  ParseAddressList e a = Ret la None -> ParseAddressList e b = Ret lb None ->
  (exists l, ParseAddressList e (a ++ bs ";" ++ b) = Ret l None) /\ (exists l, ParseAddressList e (a ++ bs "," ++ b) = Ret l None).
Proof.
  intros e a b la lb Na Nb Ea Eb Ha Hb. destruct (accepted_texts e a la Ea Ha) as [A LA]. destruct (accepted_texts e b lb Eb Hb) as [B LB].
  apply by_any in A; [|intros K; apply Na; now apply byte_kept]. apply by_any in B; [|intros K; apply Nb; now apply byte_kept].
  split; (apply texts_accepted; [destruct a; discriminate| |]).
  - left. change (bs ";" ++ b) with (59 :: b). rewrite kept_join by lia. apply (plain_join _ _ (bs ";")); auto. right; reflexivity.
  - apply (lexes_join e a b 59); [lia | auto | auto].
  - left. change (bs "," ++ b) with (44 :: b). rewrite kept_join by lia. apply (plain_join _ _ (bs ",")); auto. left; reflexivity.
  - apply (lexes_join e a b 44); [lia | auto | auto].
Qed.

(** Joined by commas, the addresses are those of the parts, under the conditions of C47. *)
Theorem C60_joined_addresses : forall e a b la lb, let s := a ++ bs "," ++ b in ~ In 59 a -> ~ In 59 b -> a <> [] \/ b <> [] ->
  paired (kept a) -> paired (kept b) -> paired (kept s) -> no_enc (kept s) \/ (tame (kept s) /\ one_fold (kept s)) ->
  ParseAddressList e a = Ret la None -> ParseAddressList e b = Ret lb None ->
  exists l, ParseAddressList e s = Ret l None /\ elems l = elems la ++ elems lb.
Proof.
  intros e a b la lb s Na Nb Ne Pa Pb P K Ha Hb. destruct (C60_join_by_comma e a b la lb Na Nb Ne Ha Hb) as [l H].
  exists l. split; [exact H|]. exact (C44_accepted e a b la lb l Pa Pb P K Ha Hb H).
Qed.

(** With a semicolon in one of them and an empty entry in the other it fails (C44_fails_with_mixed_separators);
    so it does when a comma is followed by an empty entry and joined by a semicolon. *)
Theorem C60_fails_with_empty_entries : exists l, ParseAddressList env0 (bs "a@b,") = Ret l None /\
  ParseAddressList env0 (bs "c@d") = Ret (Some [mkAddr [] (bs "c@d")]) None /\
  ParseAddressList env0 (bs "a@b," ++ bs ";" ++ bs "c@d") = Ret None (Some ESyntax).
Proof. eexists. split; [|split]; vm_compute; reflexivity. Qed.

Example C60_met : exists l l', ParseAddressList env0 (bs "a@b,,") = Ret l None /\ ParseAddressList env0 (bs ", N <c@d>") = Ret l' None /\ ~ In 59 (bs "a@b,, N <c@d>").
Proof. eexists _, _. split; [|split]; [vm_compute; reflexivity | vm_compute; reflexivity | cbn; intuition discriminate]. Qed.
