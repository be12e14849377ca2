(** C45: when the result of ParseAddressList can depend on CharsetReader. *)
From Coq Require Import String List NArith ZArith Bool Arith Lia.
From Verif Require Import Lexer Grammar Utf8 Strs Mime GoTime Parser Walker Api Spec ParserFacts
  WalkerFacts Static Total Cfws LangFacts LexFacts Utf8Facts First DateSpec AddrSpec AddrSem CharFacts PropApi DateMore PropInv.
Import ListNotations.

Lemma nodes_part Y t : (exists a b, Y = a ++ yield t ++ b) ->
  all_nodes (fun _ ch => exists a b, Y = a ++ yields ch ++ b) t.
Proof.
  induction t as [t|r ch IH] using tree_ind'; intros (a & b & E); [exact I|]. apply all_nodes_node.
  change (yield (Node r ch)) with (yields ch) in E. split; [exists a, b; exact E|].
  revert a E. induction IH as [|x ch Hx H IHch]; intros a E; [constructor|].
  change (yields (x :: ch)) with (yield x ++ yields ch) in E. constructor.
  - apply Hx. exists a, (yields ch ++ b). rewrite E, <- !app_assoc. reflexivity.
  - apply (IHch (a ++ yield x)). rewrite E, <- !app_assoc. reflexivity.
Qed.

Lemma all_nodes_and (P Q : rule -> list tree -> Prop) t : all_nodes P t -> all_nodes Q t -> all_nodes (fun r ch => P r ch /\ Q r ch) t.
Proof.
  induction t as [t|r ch IH] using tree_ind'; [intros; exact I|]. rewrite !all_nodes_node. intros [H1 H2] [H3 H4].
  split; [auto|]. rewrite Forall_forall in *. auto.
Qed.

Lemma feed_reader y rd1 rd2 t :
  all_nodes (fun r ch => r = R_encodedWord -> word_decode rd1 (get_text ch) = word_decode rd2 (get_text ch)) t ->
  forall p, feed (mkWenv y rd1) p t = feed (mkWenv y rd2) p t.
Proof.
  induction t as [t|r ch IH] using tree_ind'; intros H p; [reflexivity|].
  apply all_nodes_node in H as [Hr Hch].
  assert (HF : forall q, fold_left (feed (mkWenv y rd1)) ch q = fold_left (feed (mkWenv y rd2)) ch q).
  { clear Hr p. induction ch as [|x ch IHch]; intros q; [reflexivity|].
    inversion IH; inversion Hch; subst. cbn [fold_left]. rewrite H1 by assumption. auto. }
  cbn [feed].
  assert (EN : enter_node (mkWenv y rd1) r ch = enter_node (mkWenv y rd2) r ch).
  { destruct r; try reflexivity. cbn [enter_node]. unfold encoded_word_value. cbn [reader]. rewrite Hr; reflexivity. }
  rewrite EN. destruct (enter_node (mkWenv y rd2) r ch) as [[[n er]|]|]; now rewrite HF.
Qed.

Lemma feeds_reader y rd1 rd2 f :
  Forall (all_nodes (fun r ch => r = R_encodedWord -> word_decode rd1 (get_text ch) = word_decode rd2 (get_text ch))) f ->
  forall p, feeds (mkWenv y rd1) p f = feeds (mkWenv y rd2) p f.
Proof.
  induction 1 as [|t f Ht Hf IH]; intros p; [reflexivity|]. rewrite !feeds_cons, (feed_reader y rd1 rd2) by assumption. apply IH.
Qed.

(** The result depends on the reader only through the decoding of encoded words that are part of
    the input. *)
Theorem C45_reader_only_for_parts_of_the_input : forall y rd1 rd2 m s,
  (forall u, part u (kept s) -> word_decode rd1 (encode u) = word_decode rd2 (encode u)) ->
  ParseAddressList (mkEnv (mkWenv y rd1) m) s = ParseAddressList (mkEnv (mkWenv y rd2) m) s.
Proof.
  intros y rd1 rd2 m s HW. destruct s as [|b s]; [reflexivity|].
  assert (Hs : b :: s <> []) by discriminate. revert Hs HW. generalize (b :: s). clear b s. intros s Hs HW.
  destruct (lang_dec (Nt R_addressList) (tokens (mkEnv (mkWenv y rd1) m) s) (wfg_nt _)) as [HL|HL].
  - pose proof (accepted_tokens _ _ _ HL) as HT0. apply parse_complete in HL as [t [HT _]]. pose proof HT as HT1. apply parse_derives in HT1 as [D Y].
    apply parse_selected in HT.
    apply derives_nt in D as [ch [E D]]. injection E as ->.
    rewrite (parse_address_list_ok (mkEnv (mkWenv y rd1) m) s ch Hs HT).
    rewrite (parse_address_list_ok (mkEnv (mkWenv y rd2) m) s ch Hs HT).
    unfold list_value. cbn [wenv_of]. rewrite (feeds_reader y rd1 rd2); [reflexivity|].
    pose proof (derives_nodes _ _ D) as HN.
    assert (HP : Forall (all_nodes (fun _ c => exists a b, yields ch = a ++ yields c ++ b)) ch).
    { pose proof (nodes_part (yields ch) (Node R_addressList ch) ltac:(exists [], []; now rewrite app_nil_r)) as X.
      now apply all_nodes_node in X. }
    rewrite Forall_forall in *. intros x Hx. eapply all_nodes_impl; [|apply (all_nodes_and _ _ _ (HN x Hx) (HP x Hx))].
    intros r c [Hd (a & b & E)] ->. rewrite get_text_yields.
    assert (HL : lang (Nt R_encodedWord) (yields c)) by (exists [Node R_encodedWord c]; split; [now constructor | apply yields_node]).
    assert (NE : Forall (fun t => tt t <> T_EOF) (yields c)).
    { apply alphabet_lang in HL. eapply Forall_impl; [|exact HL]. cbv beta. intros t Ht E0. rewrite E0 in Ht. apply memb_In in Ht. vm_compute in Ht. discriminate. }
    assert (P : exists a' b', toks (kept s) = a' ++ yields c ++ b').
    { change (yields ch = tokens (mkEnv (mkWenv y rd1) m) s) in Y. rewrite Y, HT0 in E. fold (kept s) in E. fold (toks (kept s)) in E. revert NE E. generalize (yields c). intros u NE E.
      destruct (rev b) as [|z rb] eqn:Rb.
      - apply (f_equal (@rev _)) in Rb. rewrite rev_involutive in Rb. cbn in Rb. subst b. rewrite app_nil_r in E.
        destruct (rev u) as [|z ru] eqn:Ru.
        + apply (f_equal (@rev _)) in Ru. rewrite rev_involutive in Ru. cbn in Ru. subst u. exists [], (toks (kept s)). reflexivity.
        + apply (f_equal (@rev _)) in Ru. rewrite rev_involutive in Ru. cbn in Ru. subst u. rewrite app_assoc in E.
          apply app_inj_tail in E as [_ <-]. apply Forall_app in NE as [_ NE]. inversion NE; subst. exfalso. auto.
      - apply (f_equal (@rev _)) in Rb. rewrite rev_involutive in Rb. cbn in Rb. subst b. rewrite !app_assoc in E.
        apply app_inj_tail in E as [E _]. exists a, (rev rb). rewrite E, <- !app_assoc. reflexivity. }
    destruct P as (a' & b' & P).
    assert (L : Forall lexed (yields c)).
    { assert (L : Forall lexed (toks (kept s))) by apply toks_lexed. rewrite P in L. apply Forall_app in L as [_ L]. apply Forall_app in L as [L _]. exact L. }
    rewrite (text_lexed _ L). apply HW. exists (map tr a'), (map tr b').
    rewrite <- !map_app, <- P. unfold toks. now rewrite map_tr_tok_of.
  - rewrite !parse_address_list_err; auto.
Qed.

Lemma word_decode_agree (rd1 rd2 : charset_reader) :
  (forall c x, ~ In (to_lower c) [bs "utf-8"; bs "iso-8859-1"; bs "us-ascii"] ->
     match rd1 with Some f => f (to_lower c) x | None => None end =
     match rd2 with Some f => f (to_lower c) x | None => None end) ->
  forall w, word_decode rd1 w = word_decode rd2 w.
Proof.
  intros H w. unfold word_decode. destruct (_ || _); [reflexivity|].
  destruct (split_at 63%N _) as [[c rest]|]; [|reflexivity]. destruct c as [|c0 c]; [reflexivity|].
  destruct rest as [|q1 [|enc [|q text]]]; try reflexivity. destruct (q =? 63)%N; [|reflexivity].
  destruct (decode_content enc text) as [x|]; [|reflexivity]. unfold convert.
  destruct (equal_fold (bs "utf-8") (c0 :: c)) eqn:E1; [reflexivity|].
  destruct (equal_fold (bs "iso-8859-1") (c0 :: c)) eqn:E2; [reflexivity|].
  destruct (equal_fold (bs "us-ascii") (c0 :: c)) eqn:E3; [reflexivity|].
  apply H. unfold equal_fold in *.
  assert (R : forall a, eqb_str a a = true) by (induction a as [|z a IH]; [reflexivity|]; cbn [eqb_str]; now rewrite N.eqb_refl).
  intros [X|[X|[X|[]]]]; rewrite <- X in *; vm_compute in E1, E2, E3; discriminate.
Qed.

(** Two readers that agree on every lower-case charset name other than utf-8, iso-8859-1 and
    us-ascii (a nil reader counts as one that always fails) give the same results. *)
Theorem C45_reader_lower_case_names_only : forall y m s (rd1 rd2 : charset_reader),
  (forall c x, to_lower c = c -> ~ In c [bs "utf-8"; bs "iso-8859-1"; bs "us-ascii"] ->
     match rd1 with Some f => f c x | None => None end = match rd2 with Some f => f c x | None => None end) ->
  ParseAddressList (mkEnv (mkWenv y rd1) m) s = ParseAddressList (mkEnv (mkWenv y rd2) m) s.
Proof.
  intros y m s rd1 rd2 H. apply C45_reader_only_for_parts_of_the_input. intros u _. apply word_decode_agree.
  intros c x. apply H. unfold to_lower. rewrite map_map. apply map_ext. intros b. unfold lower_byte, in_range.
  destruct ((65 <=? b)%N && (b <=? 90)%N) eqn:E; [|now rewrite E].
  apply andb_true_iff in E as [E1 E2]. apply N.leb_le in E1, E2. destruct (N.leb_spec (b + 32) 90); [lia|]. now rewrite andb_false_r.
Qed.

Definition below_date : list nat := Eval vm_compute in reach R_dateTime.
Definition under_date (r : rule) : bool := mem_rule r below_date.
Lemma under_date_closed : closed under_date = true.
Proof. vm_compute. reflexivity. Qed.

(** Without "=?" in the input the reader is irrelevant; for dates it always is. *)
Theorem C45_reader_irrelevant : forall y m s (rd1 rd2 : charset_reader),
  (~ part [61; 63]%N (kept s) ->
    ParseAddressList (mkEnv (mkWenv y rd1) m) s = ParseAddressList (mkEnv (mkWenv y rd2) m) s) /\
  ParseDateTime (mkEnv (mkWenv y rd1) m) s = ParseDateTime (mkEnv (mkWenv y rd2) m) s.
Proof.
  intros y m s rd1 rd2. split.
  2:{ destruct (parse_date_time_cases (mkEnv (mkWenv y rd1) m) s) as [[-> _]|[[Hs [NL _]]|[Hs [ch [S [D [Y [_ R]]]]]]]].
      - reflexivity.
      - rewrite !parse_date_time_err by assumption. reflexivity.
      - rewrite R. rewrite (parse_date_time_ok (mkEnv (mkWenv y rd2) m) s ch Hs S). unfold time_value. cbn [wenv_of].
        rewrite (feeds_reader y rd1 rd2); [reflexivity|].
        pose proof (derives_rules under_date _ _ under_date_closed D eq_refl) as HU.
        rewrite Forall_forall in *. intros x Hx. eapply all_nodes_impl; [|apply HU; exact Hx].
        intros r c Hr ->. vm_compute in Hr. discriminate. }
  intros H. apply C45_reader_only_for_parts_of_the_input. intros u Hu.
  rewrite !(no_introducer _ _ H) by assumption. reflexivity.
Qed.

(** C33, second half: a character above U+FFFF is in no name and no address, unless an encoded word
    is decoded. *)
Theorem C33_never_returned : forall e s sl, ParseAddressList e s = Ret sl None ->
  undecodable (reader (wenv_of e)) (kept s) ->
  exists rs, all_text (elems sl) = encode rs /\ Forall (fun r => (r <= 65535)%N) rs.
Proof.
  intros e s sl H U. destruct (C22_nothing_invented e s sl H U) as [rs [E S]]. exists rs. split; [exact E|].
  assert (G : forall a b, subseq a b -> Forall (fun r => (r <= 65535)%N) b -> Forall (fun r => (r <= 65535)%N) a).
  { induction 1; intros F; [constructor|inversion F; constructor; auto|inversion F; auto]. }
  apply G in S.
  - rewrite Forall_forall in *. intros r Hr. destruct (N.eq_dec r 32) as [->|D]; [lia|]. apply S. unfold no_spaces. apply filter_In.
    split; [exact Hr|]. apply negb_true_iff, N.eqb_neq. exact D.
  - apply Forall_forall. intros r Hr. unfold no_spaces in Hr. apply filter_In in Hr as [Hr _].
    apply filter_In in Hr as [_ Hr]. unfold bmp in Hr. now apply N.leb_le in Hr.
Qed.

Example C33_example : ParseAddressList env0 ([240; 159; 152; 128]%N ++ bs "a@b") = Ret (Some [mkAddr [] (bs "a@b")]) None.
Proof. vm_compute. reflexivity. Qed.

Definition shout (c x : gostring) : option gostring := if eqb_str c (bs "x-up") then Some (bs "UP") else None.

(** Not vacuous: the reader is called with the name in lower case, and it does matter. *)
Example C45_example :
  ParseAddressList (mkEnv (mkWenv 2020 (Some shout)) SkipBad) (bs "=?X-Up?Q?a?= <b@c>") = Ret (Some [mkAddr (bs "UP") (bs "b@c")]) None /\
  ParseAddressList (mkEnv (mkWenv 2020 None) SkipBad) (bs "=?X-Up?Q?a?= <b@c>") = Ret (Some [mkAddr (bs "=?X-Up?Q?a?=") (bs "b@c")]) None.
Proof. split; vm_compute; reflexivity. Qed.

