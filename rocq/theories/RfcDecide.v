(** Deciding whether a short text belongs to RFC 5322: the rules of Rfc5322.v as regular expressions, from above and
    from below, and a matcher for them.  Used in PropRfcMore.v to show that texts are not in the standard. *)
From Coq Require Import String List NArith Bool Arith Lia.
From Verif Require Import Lexer Utf8 Strs DateSpec AddrText EncText AcceptText AcceptFacts Rfc5322.
Import ListNotations.
Local Open Scope text_scope.

(** ** Regular expressions *)
Inductive rx : Type :=
| RNone | ROne (p : rune -> bool) | RWord (p : list rune -> bool) | RAlt (a b : rx) | RCat (a b : rx) | RMany (a : rx) | ROpt (a : rx).

Fixpoint den (r : rx) : texts :=
  match r with
  | RNone => fun _ => False
  | ROne p => one p
  | RWord p => fun x => p x = true
  | RAlt a b => den a <|> den b
  | RCat a b => den a ;; den b
  | RMany a => many (den a)
  | ROpt a => optional (den a)
  end.

(** ** A matcher: sets of positions in a text *)
Section matcher.
  Variable w : list rune.
  Notation pos := (list bool).
  Definition is_in (S0 : pos) (i : nat) : Prop := nth i S0 false = true.

  Fixpoint union (a b : pos) : pos :=
    match a, b with [], b => b | a, [] => a | x :: a, y :: b => (x || y) :: union a b end.

  Lemma union_in a : forall b i, is_in (union a b) i <-> is_in a i \/ is_in b i.
  Proof.
    unfold is_in. induction a as [|x a IH]; intros [|y b] i; cbn [union].
    - destruct i; cbn; intuition discriminate.
    - destruct i; cbn; intuition discriminate.
    - destruct i; cbn; intuition discriminate.
    - destruct i as [|i]; cbn [nth]; [apply orb_true_iff | apply IH].
  Qed.

  Fixpoint shift (p : rune -> bool) (S0 : pos) (v : list rune) : pos :=
    match S0, v with s :: S0, c :: v => (s && p c) :: shift p S0 v | _, _ => [] end.

  Lemma shift_in p : forall v S0 i, is_in (shift p S0 v) i <-> is_in S0 i /\ exists r, nth_error v i = Some r /\ p r = true.
  Proof.
    unfold is_in. induction v as [|c v IH]; intros [|s S0] i; cbn [shift].
    - destruct i; cbn; split; [discriminate | intros [[=] _] | discriminate | intros [[=] _]].
    - destruct i; cbn; split; try discriminate; intros [_ (r & [=] & _)].
    - destruct i; cbn; split; try discriminate; intros [[=] _].
    - destruct i as [|i]; cbn [nth nth_error]; [|apply IH]. rewrite andb_true_iff. split.
      + intros [H1 H2]. split; [exact H1 | exists c; auto].
      + intros [H1 (r & [= <-] & H2)]. auto.
  Qed.

  Definition everywhere : pos := repeat true (S (length w)).
  Definition sub (i j : nat) : list rune := firstn (j - i) (skipn i w).
  Definition words (p : list rune -> bool) (S0 : pos) : pos :=
    map (fun j => existsb (fun i => nth i S0 false && p (sub i j)) (seq 0 (S j))) (seq 0 (S (length w))).

  Definition nowhere_in (a : pos) : bool := negb (existsb (fun x => x) a).
  Fixpoint minus (a b : pos) : pos :=
    match a, b with [], _ => [] | a, [] => a | x :: a, y :: b => (x && negb y) :: minus a b end.

  (** Add [f F] to [X], then [f] of what is new, and so on. *)
  Fixpoint loop (n : nat) (f : pos -> pos) (X F : pos) : pos :=
    match n with O => X | S n => let N := minus (f F) X in if nowhere_in N then X else loop n f (union X N) N end.

  (** Where a text of [r] that begins in [S0] can end; [up]: more positions, if the loop was too short. *)
  Fixpoint ends (up : bool) (r : rx) (S0 : pos) : pos :=
    if nowhere_in S0 then [] else
    match r with
    | RNone => []
    | ROne p => false :: shift p S0 w
    | RWord p => words p S0
    | RAlt a b => union (ends up a S0) (ends up b S0)
    | RCat a b => ends up b (ends up a S0)
    | RMany a =>
        let X := loop (length w) (ends up a) S0 S0 in
        if up then if nowhere_in (minus (ends up a X) X) then X else everywhere else X
    | ROpt a => union S0 (ends up a S0)
    end.

  Definition matched (up : bool) (r : rx) : bool := nth (length w) (ends up r [true]) false.

  (** [u] stands at position [i]. *)
  Definition stands (i : nat) (u : list rune) : Prop := exists p q, w = p ++ u ++ q /\ length p = i.

  Lemma stands_app i u v : stands i (u ++ v) <-> stands i u /\ stands (i + length u) v.
  Proof.
    split.
    - intros (p & q & E & <-). split.
      + exists p, (v ++ q). split; [rewrite E, <- app_assoc; reflexivity | reflexivity].
      + exists (p ++ u), q. split; [rewrite E, <- !app_assoc; reflexivity | apply app_length].
    - intros [(p & q & E & <-) (p' & q' & E' & L)]. exists p, q'. split; [|reflexivity].
      assert (X : p' = p ++ u).
      { apply (f_equal (firstn (length p'))) in E'. rewrite firstn_app, Nat.sub_diag, firstn_O, app_nil_r, firstn_all in E'. rewrite <- E', E, app_assoc, firstn_app, L, app_length, Nat.sub_diag, firstn_O, app_nil_r.
        apply firstn_all2. rewrite app_length. lia. }
      subst p'. rewrite E', <- !app_assoc. reflexivity.
  Qed.

  Lemma stands_len i u : stands i u -> i + length u <= length w.
  Proof. intros (p & q & -> & <-). rewrite !app_length. lia. Qed.

  Lemma stands_nil i : i <= length w -> stands i [].
  Proof. intros H. exists (firstn i w), (skipn i w). split; [cbn [app]; rewrite firstn_skipn; reflexivity | rewrite firstn_length; lia]. Qed.

  Lemma stands_sub i u : stands i u -> sub i (i + length u) = u.
  Proof.
    intros (p & q & E & <-). unfold sub. rewrite E, skipn_app, skipn_all, Nat.sub_diag. cbn [app skipn]. replace (length p + length u - length p) with (length u) by lia.
    rewrite firstn_app, Nat.sub_diag, firstn_O, app_nil_r. apply firstn_all.
  Qed.

  Lemma sub_stands i j : i <= j -> j <= length w -> stands i (sub i j) /\ i + length (sub i j) = j.
  Proof.
    intros H1 H2. unfold sub. assert (L : length (firstn (j - i) (skipn i w)) = j - i) by (rewrite firstn_length, skipn_length; lia). rewrite L. split; [|lia].
    exists (firstn i w), (skipn (j - i) (skipn i w)). split; [rewrite firstn_skipn, firstn_skipn; reflexivity | rewrite firstn_length; lia].
  Qed.

  Lemma everywhere_in i : i <= length w -> is_in everywhere i.
  Proof.
    unfold is_in, everywhere. intros H. assert (X : nth i (repeat true (S (length w))) true = true) by (generalize (S (length w)) as n; clear; intros n; revert i; induction n as [|n IH]; intros [|i]; cbn; auto).
    rewrite <- X at 2. apply nth_indep. rewrite repeat_length. lia.
  Qed.

  Lemma nth_map_seq (f : nat -> bool) n i : nth i (map f (seq 0 n)) false = (i <? n) && f i.
  Proof.
    destruct (Nat.ltb_spec i n) as [L|L]; cbn [andb].
    - rewrite nth_indep with (d' := f 0) by (rewrite map_length, seq_length; exact L). rewrite map_nth, seq_nth by exact L. reflexivity.
    - apply nth_overflow. rewrite map_length, seq_length. exact L.
  Qed.

  Lemma words_in p S0 j : is_in (words p S0) j <-> j <= length w /\ exists i, i <= j /\ is_in S0 i /\ p (sub i j) = true.
  Proof.
    unfold is_in, words. rewrite nth_map_seq, andb_true_iff, Nat.ltb_lt, existsb_exists. split.
    - intros [H1 (i & Hi & H2)]. apply in_seq in Hi. apply andb_true_iff in H2 as [H2 H3]. split; [lia|]. exists i. split; [lia | auto].
    - intros [H1 (i & Hi & H2 & H3)]. split; [lia|]. exists i. split; [apply in_seq; lia | rewrite H2, H3; reflexivity].
  Qed.

  Lemma one_stands i r : stands i [r] <-> nth_error w i = Some r.
  Proof.
    split.
    - intros (p & q & -> & <-). rewrite nth_error_app2, Nat.sub_diag by lia. reflexivity.
    - intros H. apply nth_error_split in H as (p & q & E & L). exists p, q. auto.
  Qed.

  Lemma nowhere_iff a : nowhere_in a = true <-> forall i, ~ is_in a i.
  Proof.
    unfold nowhere_in, is_in. rewrite negb_true_iff. induction a as [|x a IH]; cbn [existsb].
    - split; [|reflexivity]. intros _ i. destruct i; discriminate.
    - rewrite orb_false_iff. split.
      + intros [-> H] [|i]; cbn [nth]; [discriminate | apply IH; exact H].
      + intros H. split; [specialize (H 0); cbn in H; destruct x; [contradiction H; reflexivity | reflexivity]|]. apply IH. intros i. apply (H (S i)).
  Qed.

  Lemma minus_in a : forall b i, is_in (minus a b) i <-> is_in a i /\ ~ is_in b i.
  Proof.
    unfold is_in. induction a as [|x a IH]; intros [|y b] i; cbn [minus].
    - destruct i; cbn; intuition discriminate.
    - destruct i; cbn; intuition discriminate.
    - destruct i; cbn; intuition discriminate.
    - destruct i as [|i]; cbn [nth]; [|apply IH]. destruct x, y; cbn; intuition discriminate.
  Qed.

  Lemma minus_none a b i : nowhere_in (minus a b) = true -> is_in a i -> is_in b i.
  Proof.
    rewrite nowhere_iff. intros H Ha. specialize (H i). rewrite minus_in in H. unfold is_in in *. destruct (nth i b false); [reflexivity|]. exfalso. apply H. split; [exact Ha | discriminate].
  Qed.

  Lemma loop_more n f : forall X F i, is_in X i -> is_in (loop n f X F) i.
  Proof. induction n as [|n IH]; intros X F i H; cbn [loop]; [exact H|]. destruct (nowhere_in _); [exact H|]. apply IH. apply union_in. auto. Qed.

  (** From above: no end is missed. *)
  Lemma ends_up r : forall S0 i u, is_in S0 i -> stands i u -> den r u -> is_in (ends true r S0) (i + length u).
  Proof.
    induction r as [|p|p|a IHa b IHb|a IHa b IHb|a IHa|a IHa]; intros S0 i u Hi St H; cbn [den ends] in *; (destruct (nowhere_in S0) eqn:NS; [rewrite nowhere_iff in NS; contradiction (NS _ Hi)|]).
    - contradiction.
    - destruct H as (r & -> & Hr). apply one_stands in St. unfold is_in. cbn [length]. rewrite Nat.add_1_r. cbn [nth]. apply shift_in. eauto.
    - apply words_in. split; [apply stands_len; exact St|]. exists i. split; [lia|]. split; [exact Hi|]. rewrite stands_sub; assumption.
    - apply union_in. destruct H as [H|H]; [left; eapply IHa | right; eapply IHb]; eassumption.
    - destruct H as (u1 & u2 & -> & H1 & H2). apply stands_app in St as [St1 St2]. rewrite app_length, Nat.add_assoc. eapply IHb; [eapply IHa; eassumption | exact St2 | exact H2].
    - set (X := loop (length w) (ends true a) S0 S0). destruct (nowhere_in (minus (ends true a X) X)) eqn:Q; [|apply everywhere_in; apply stands_len; exact St].
      assert (Hx : is_in X i) by (apply loop_more; exact Hi). clear Hi. revert i Hx St. induction H as [|u v Hu Hv IH]; intros i Hx St.
      + cbn [length]. rewrite Nat.add_0_r. exact Hx.
      + apply stands_app in St as [St1 St2]. rewrite app_length, Nat.add_assoc. apply IH; [|exact St2].
        apply (minus_none _ _ _ Q). eapply IHa; eassumption.
    - apply union_in. destruct H as [->|H]; [left; cbn [length]; rewrite Nat.add_0_r; exact Hi | right; eapply IHa; eassumption].
  Qed.

  (** From below: every end is one. *)
  Lemma ends_down : forall r S0 j, (forall i, is_in S0 i -> i <= length w) -> is_in (ends false r S0) j ->
    exists i u, is_in S0 i /\ stands i u /\ j = i + length u /\ den r u.
  Proof.
    assert (Bd : forall r S0 j, (forall i, is_in S0 i -> i <= length w) -> (exists i u, is_in S0 i /\ stands i u /\ j = i + length u /\ den r u) -> j <= length w).
    { intros r S0 j _ (i & u & _ & St & -> & _). apply stands_len. exact St. }
    induction r as [|p|p|a IHa b IHb|a IHa b IHb|a IHa|a IHa]; intros S0 j B H; cbn [den ends] in *; (destruct (nowhere_in S0) eqn:NS; [destruct j; discriminate H|]); clear NS.
    - destruct j; discriminate.
    - destruct j as [|j]; [discriminate|]. apply shift_in in H as [H (r & Er & Hr)]. exists j, [r]. split; [exact H|]. split; [apply one_stands; exact Er|]. split; [cbn; lia | exists r; auto].
    - apply words_in in H as [H (i & Hi & Hs & Hp)]. destruct (sub_stands i j Hi H) as [St L]. exists i, (sub i j). auto.
    - apply union_in in H as [H|H]; [destruct (IHa _ _ B H) as (i & u & H1 & H2 & H3 & H4) | destruct (IHb _ _ B H) as (i & u & H1 & H2 & H3 & H4)]; exists i, u; unfold either; auto.
    - assert (Ba : forall i, is_in (ends false a S0) i -> i <= length w) by (intros i Hi; apply (Bd a S0); [exact B | apply IHa; assumption]).
      destruct (IHb _ _ Ba H) as (k & v & Hk & Sv & -> & Dv). destruct (IHa _ _ B Hk) as (i & u & Hi & Su & -> & Du).
      exists i, (u ++ v). split; [exact Hi|]. split; [apply stands_app; auto|]. split; [rewrite app_length; lia | exists u, v; auto].
    - set (reached := fun j => exists i u, is_in S0 i /\ stands i u /\ j = i + length u /\ many (den a) u).
      assert (L : forall n X F, (forall j, is_in X j -> reached j) -> (forall j, is_in F j -> reached j) -> forall j, is_in (loop n (ends false a) X F) j -> reached j).
      { assert (App : forall v, many (den a) v -> forall u, den a u -> many (den a) (v ++ u)).
        { induction 1 as [|x y Hx _ IH]; intros u Hu; [cbn [app]; rewrite <- (app_nil_r u); constructor; [exact Hu | constructor] | rewrite <- app_assoc; constructor; auto]. }
        assert (Br : forall F, (forall j, is_in F j -> reached j) -> forall j, is_in F j -> j <= length w).
        { intros F HF j0 Hj. destruct (HF _ Hj) as (i & u & _ & St & -> & _). apply stands_len. exact St. }
        induction n as [|n IHn]; intros X F HX HF j0 Hj; cbn [loop] in Hj; [exact (HX _ Hj)|]. destruct (nowhere_in _); [exact (HX _ Hj)|].
        assert (HN : forall j, is_in (minus (ends false a F) X) j -> reached j).
        { intros j1 H1. apply minus_in in H1 as [H1 _]. destruct (IHa _ _ (Br F HF) H1) as (k & u & Hk & Su & -> & Du). destruct (HF _ Hk) as (i & v & Hi & Sv & -> & Dv).
          exists i, (v ++ u). split; [exact Hi|]. split; [apply stands_app; auto|]. split; [rewrite app_length; lia | auto]. }
        apply (IHn (union X (minus (ends false a F) X)) (minus (ends false a F) X)); [|exact HN | exact Hj]. intros j1 H1. apply union_in in H1 as [H1|H1]; auto. }
      assert (B0 : forall j, is_in S0 j -> reached j).
      { intros j0 Hj. exists j0, []. split; [exact Hj|]. split; [apply stands_nil; apply B; exact Hj|]. split; [cbn; lia | constructor]. }
      exact (L _ _ _ B0 B0 _ H).
    - apply union_in in H as [H|H].
      + exists j, []. split; [exact H|]. split; [apply stands_nil; apply B; exact H|]. split; [cbn; lia | now left].
      + destruct (IHa _ _ B H) as (i & u & H1 & H2 & H3 & H4). exists i, u. split; [exact H1|]. split; [exact H2|]. split; [exact H3 | now right].
  Qed.

  Lemma not_matched r : matched true r = false -> ~ den r w.
  Proof.
    intros H D. assert (X : is_in (ends true r [true]) (0 + length w)) by (apply (ends_up r [true] 0 w); [reflexivity | exists [], []; rewrite app_nil_r; auto | exact D]).
    unfold is_in in X. unfold matched in H. cbn [Nat.add] in X. congruence.
  Qed.

  Lemma is_matched r : matched false r = true -> den r w.
  Proof.
    intros H. destruct (ends_down r [true] (length w)) as (i & u & Hi & (p & q & E & L) & Lu & D).
    - intros [|[|i]] X; [lia | discriminate X | destruct i; discriminate X].
    - exact H.
    - destruct i as [|i]; [|destruct i as [|i]; [discriminate Hi | destruct i; discriminate Hi]]. destruct p; [|discriminate]. cbn [app Nat.add] in *.
      assert (q = []) by (apply (f_equal (@length _)) in E; rewrite app_length in E; destruct q; [reflexivity | cbn in E; lia]). subst q. rewrite app_nil_r in E. subst u. exact D.
  Qed.
End matcher.

(** ** The rules of Rfc5322.v as regular expressions; comments and encoded words are parameters *)
Declare Scope rx_scope.
Notation "a ;;; b" := (RCat a b) (at level 61, right associativity) : rx_scope.
Notation "a <||> b" := (RAlt a b) (at level 62, right associativity) : rx_scope.
Fixpoint eq_text (a b : list rune) : bool :=
  match a, b with [], [] => true | x :: a, y :: b => N.eqb x y && eq_text a b | _, _ => false end.
Definition r_word (l : list rune) : rx := RWord (eq_text l).
Definition r_lit (s : string) : rx := r_word (bs s).
Definition r_named (l : list (list rune)) : rx := RWord (fun x => existsb (eq_text (to_lower x)) l).
Definition r_one : (rune -> bool) -> rx := ROne.
Definition r_many : rx -> rx := RMany.
Definition r_optional : rx -> rx := ROpt.
Local Open Scope rx_scope.
Definition r_some (a : rx) : rx := a ;;; RMany a.
Definition r_two (a : rx) : rx := a ;;; a.
Definition r_four (a : rx) : rx := a ;;; a ;;; a ;;; a.

Section rules.
  Variable b : form -> bool.
  Variables cm ew : rx.
  Local Open Scope N_scope.
  Definition r_may (f : form) (a : rx) : rx := if b f then a else RNone.
  Definition r_utf8_non_ascii : rx := r_may U_characters (r_one (in_range 128 65535)) <||> r_may U_high_characters (r_one (in_range 65536 1114111)).
  Definition r_DIGIT : rx := r_one (in_range 48 57).
  Definition r_ALPHA : rx := r_one (in_range 65 90) <||> r_one (in_range 97 122).
  Definition r_WSP : rx := r_lit " " <||> (r_word [9]).
  Definition r_CRLF : rx := r_word [13; 10].
  Definition r_DQUOTE : rx := r_lit """".
  Definition r_VCHAR : rx := r_one (in_range 33 126) <||> r_utf8_non_ascii.
  Definition r_obs_NO_WS_CTL : rx := r_one (in_range 1 8) <||> r_one (N.eqb 11) <||> r_one (N.eqb 12) <||> r_one (in_range 14 31) <||> r_one (N.eqb 127).
  Definition r_obs_qp : rx := r_lit "\" ;;; (r_one (N.eqb 0) <||> r_obs_NO_WS_CTL <||> r_one (N.eqb 10) <||> r_one (N.eqb 13)).
  Definition r_quoted_pair : rx := r_lit "\" ;;; (r_VCHAR <||> r_WSP) <||> r_may O_qp r_obs_qp.
  Definition r_obs_FWS : rx := r_some r_WSP ;;; r_many (r_CRLF ;;; r_some r_WSP).
  Definition r_FWS : rx := r_optional (r_many r_WSP ;;; r_CRLF) ;;; r_some r_WSP <||> r_may O_FWS r_obs_FWS.
  Definition r_ctext : rx := r_one (in_range 33 39) <||> r_one (in_range 42 91) <||> r_one (in_range 93 126) <||> r_utf8_non_ascii <||> r_may O_ctext r_obs_NO_WS_CTL.
  Definition r_CFWS : rx := r_some (r_optional r_FWS ;;; cm) ;;; r_optional r_FWS <||> r_FWS.
  Definition r_atext : rx := r_ALPHA <||> r_DIGIT <||> r_one (fun r => existsb (N.eqb r) (bs "!#$%&'*+-/=?^_`{|}~")) <||> r_utf8_non_ascii.
  Definition r_rfc_atom : rx := r_optional r_CFWS ;;; r_some r_atext ;;; r_optional r_CFWS.
  Definition r_dot_atom_text : rx := r_some r_atext ;;; r_many (r_lit "." ;;; r_some r_atext) ;;; r_optional (r_may X_final_period (r_lit ".")).
  Definition r_rfc_dot_atom : rx := r_optional r_CFWS ;;; r_dot_atom_text ;;; r_optional r_CFWS.
  Definition r_qtext : rx := r_one (N.eqb 33) <||> r_one (in_range 35 91) <||> r_one (in_range 93 126) <||> r_utf8_non_ascii <||> r_may O_qtext r_obs_NO_WS_CTL.
  Definition r_qcontent : rx := r_qtext <||> r_quoted_pair.
  Definition r_rfc_quoted_string : rx := r_optional r_CFWS ;;; r_DQUOTE ;;; r_many (r_optional r_FWS ;;; r_qcontent) ;;; r_optional r_FWS ;;; r_DQUOTE ;;; r_optional r_CFWS.
  Definition r_encoded_words : rx := r_some (r_optional r_CFWS ;;; ew ;;; r_optional r_CFWS).
  Definition r_rfc_word : rx := r_rfc_atom <||> r_rfc_quoted_string <||> r_may X_encoded_words r_encoded_words.
  Definition r_obs_phrase : rx := r_rfc_word ;;; r_many (r_rfc_word <||> r_lit "." <||> r_CFWS <||> r_may X_at_in_name (r_lit "@")).
  Definition r_phrase : rx := r_some r_rfc_word <||> r_may O_phrase r_obs_phrase.
  Definition r_obs_local_part : rx := r_rfc_word ;;; r_many (r_lit "." ;;; r_rfc_word).
  Definition r_local_part : rx := r_rfc_dot_atom <||> r_rfc_quoted_string <||> r_may O_local_part r_obs_local_part.
  Definition r_obs_dtext : rx := r_obs_NO_WS_CTL <||> r_quoted_pair.
  Definition r_rfc_dtext : rx := r_one (in_range 33 90) <||> r_one (in_range 94 126) <||> r_utf8_non_ascii <||> r_may O_dtext r_obs_dtext.
  Definition r_domain_literal : rx := r_optional r_CFWS ;;; r_lit "[" ;;; r_many (r_optional r_FWS ;;; r_rfc_dtext) ;;; r_optional r_FWS ;;; r_lit "]" ;;; r_optional r_CFWS.
  Definition r_obs_domain : rx := r_rfc_atom ;;; r_many (r_lit "." ;;; r_rfc_atom).
  Definition r_domain : rx := r_rfc_dot_atom <||> r_domain_literal <||> r_may O_domain r_obs_domain.
  Definition r_addr_spec : rx := r_local_part ;;; r_lit "@" ;;; r_domain ;;; r_optional (r_may X_port (r_lit ":" ;;; r_some r_DIGIT)).
  Definition r_obs_domain_list : rx := r_many (r_CFWS <||> r_lit ",") ;;; r_lit "@" ;;; r_domain ;;; r_many (r_lit "," ;;; r_optional r_CFWS ;;; r_optional (r_lit "@" ;;; r_domain)).
  Definition r_obs_route : rx := r_obs_domain_list ;;; r_lit ":".
  Definition r_obs_angle_addr : rx := r_optional r_CFWS ;;; r_lit "<" ;;; r_obs_route ;;; r_addr_spec ;;; r_lit ">" ;;; r_optional r_CFWS.
  Definition r_angle_addr : rx := r_optional r_CFWS ;;; r_lit "<" ;;; r_addr_spec ;;; r_lit ">" ;;; r_optional r_CFWS <||> r_may O_angle_addr r_obs_angle_addr <||>
    r_may X_empty_angle (r_optional r_CFWS ;;; r_lit "<" ;;; r_lit ">" ;;; r_optional r_CFWS).
  Definition r_display_name : rx := r_phrase.
  Definition r_name_addr : rx := r_optional r_display_name ;;; r_angle_addr.
  Definition r_mailbox : rx := r_name_addr <||> r_addr_spec.
  Definition r_obs_mbox_list : rx := r_many (r_optional r_CFWS ;;; r_lit ",") ;;; r_mailbox ;;; r_many (r_lit "," ;;; r_optional (r_mailbox <||> r_CFWS)).
  Definition r_mailbox_list : rx := r_mailbox ;;; r_many (r_lit "," ;;; r_mailbox) <||> r_may O_mbox_list r_obs_mbox_list.
  Definition r_obs_group_list : rx := r_some (r_optional r_CFWS ;;; r_lit ",") ;;; r_optional r_CFWS.
  Definition r_group_list : rx := r_mailbox_list <||> r_CFWS <||> r_may O_group_list r_obs_group_list.
  Definition r_group : rx := r_optional (r_may X_group_quote r_DQUOTE) ;;; r_display_name ;;; r_lit ":" ;;; r_optional r_group_list ;;;
    r_optional (r_may X_group_quote r_DQUOTE) ;;; (r_lit ";" <||> r_may X_open_group (r_lit "")) ;;; r_optional r_CFWS.
  Definition r_address : rx := r_mailbox <||> r_group.
  Definition r_obs_addr_list : rx := r_many (r_optional r_CFWS ;;; r_lit ",") ;;; r_address ;;; r_many (r_lit "," ;;; r_optional (r_address <||> r_CFWS)).
  Definition r_address_list : rx := r_address ;;; r_many (r_lit "," ;;; r_address) <||> r_may O_addr_list r_obs_addr_list <||>
    r_may X_semicolon (r_address ;;; r_many ((r_lit "," <||> r_lit ";") ;;; r_address)).
  Definition r_rfc_day_name : rx := r_named [bs "mon"; bs "tue"; bs "wed"; bs "thu"; bs "fri"; bs "sat"; bs "sun"].
  Definition r_rfc_month : rx := r_named [bs "jan"; bs "feb"; bs "mar"; bs "apr"; bs "may"; bs "jun"; bs "jul"; bs "aug"; bs "sep"; bs "oct"; bs "nov"; bs "dec"].
  Definition r_day_of_week : rx := r_optional r_FWS ;;; r_rfc_day_name <||> r_may O_day_of_week (r_optional r_CFWS ;;; r_rfc_day_name ;;; r_optional r_CFWS).
  Definition r_rfc_day : rx := r_optional r_FWS ;;; (r_DIGIT ;;; r_optional r_DIGIT) ;;; r_FWS <||> r_may O_day (r_optional r_CFWS ;;; (r_DIGIT ;;; r_optional r_DIGIT) ;;; r_optional r_CFWS).
  Definition r_rfc_year : rx := r_FWS ;;; r_four r_DIGIT ;;; r_FWS <||> r_may Long_year (r_FWS ;;; r_four r_DIGIT ;;; r_some r_DIGIT ;;; r_FWS) <||>
    r_may O_year (r_optional r_CFWS ;;; r_two r_DIGIT ;;; r_optional r_CFWS) <||>
    r_may O_long_obs_year (r_optional r_CFWS ;;; r_two r_DIGIT ;;; r_some r_DIGIT ;;; r_optional r_CFWS).
  Definition r_rfc_hour : rx := r_two r_DIGIT <||> r_may O_hour (r_optional r_CFWS ;;; r_two r_DIGIT ;;; r_optional r_CFWS) <||>
    r_may X_short_hour (r_optional r_CFWS ;;; r_DIGIT ;;; r_optional r_CFWS).
  Definition r_rfc_minute : rx := r_two r_DIGIT <||> r_may O_minute (r_optional r_CFWS ;;; r_two r_DIGIT ;;; r_optional r_CFWS).
  Definition r_rfc_second : rx := r_two r_DIGIT <||> r_may O_second (r_optional r_CFWS ;;; r_two r_DIGIT ;;; r_optional r_CFWS).
  Definition r_obs_zone : rx := r_named [bs "ut"; bs "gmt"; bs "est"; bs "edt"; bs "cst"; bs "cdt"; bs "mst"; bs "mdt"; bs "pst"; bs "pdt"].
  Definition r_military_zone : rx := r_one (in_range 65 73) <||> r_one (in_range 75 90) <||> r_one (in_range 97 105) <||> r_one (in_range 107 122).
  Definition r_rfc_zone : rx := r_FWS ;;; (r_lit "+" <||> r_lit "-") ;;; r_four r_DIGIT <||> r_may O_zone r_obs_zone <||> r_may O_military r_military_zone <||>
    r_may X_no_sign (r_FWS ;;; r_four r_DIGIT) <||> r_may X_UTC (r_named [bs "utc"]) <||> r_may X_no_zone (r_lit "").
  Definition r_time_of_day : rx := r_rfc_hour ;;; r_lit ":" ;;; r_rfc_minute ;;; r_optional (r_lit ":" ;;; r_rfc_second).
  Definition r_rfc_date_time : rx := r_optional (r_day_of_week ;;; r_lit ",") ;;; (r_rfc_day ;;; r_rfc_month ;;; r_rfc_year) ;;; (r_time_of_day ;;; r_rfc_zone) ;;; r_optional r_CFWS.
End rules.

Lemma eq_text_iff a : forall b, eq_text a b = true <-> b = a.
Proof.
  induction a as [|x a IH]; intros [|y b]; cbn [eq_text]; split; try discriminate; auto.
  - intros H. apply andb_true_iff in H as [H1 H2]. apply N.eqb_eq in H1. apply IH in H2. congruence.
  - intros [= -> ->]. rewrite N.eqb_refl. apply IH. reflexivity.
Qed.

(** ** A relation between rules and expressions that is kept by all operations holds for all rules *)
Section reflect.
  Variable on : form -> Prop.
  Variable b : form -> bool.
  Variables cm ew : rx.
  Variable R : texts -> rx -> Prop.
  Hypothesis R_one : forall p, R (one p) (ROne p).
  Hypothesis R_word : forall l, R (fun x => x = l) (r_word l).
  Hypothesis R_named : forall l, R (named l) (r_named l).
  Hypothesis R_cat : forall P Q a a', R P a -> R Q a' -> R (P ;; Q) (RCat a a').
  Hypothesis R_either : forall P Q a a', R P a -> R Q a' -> R (P <|> Q) (RAlt a a').
  Hypothesis R_many : forall P a, R P a -> R (many P) (RMany a).
  Hypothesis R_opt : forall P a, R P a -> R (optional P) (ROpt a).
  Hypothesis R_may : forall f P a, R P a -> R (may on f P) (r_may b f a).
  Hypothesis R_comment : R (rfc_comment on) cm.
  Hypothesis R_encoded : R (may on X_encoded_words (encoded_words on)) (r_may b X_encoded_words (r_encoded_words b cm ew)).
  Create HintDb rr.
  Local Ltac go := repeat first [assumption | solve [auto 1 with rr nocore] | apply R_one | apply R_word | apply R_named | apply R_either | apply R_cat | apply R_many | apply R_opt | apply R_may].
  Lemma rr_utf8_non_ascii : R (utf8_non_ascii on) (r_utf8_non_ascii b).
  Proof. unfold utf8_non_ascii, r_utf8_non_ascii; unfold some, two, four, r_some, r_two, r_four, r_one, r_many, r_optional. go. Qed.
  Hint Resolve rr_utf8_non_ascii : rr.
  Lemma rr_DIGIT : R DIGIT (r_DIGIT).
  Proof. unfold DIGIT, r_DIGIT; unfold some, two, four, r_some, r_two, r_four, r_one, r_many, r_optional. go. Qed.
  Hint Resolve rr_DIGIT : rr.
  Lemma rr_ALPHA : R ALPHA (r_ALPHA).
  Proof. unfold ALPHA, r_ALPHA; unfold some, two, four, r_some, r_two, r_four, r_one, r_many, r_optional. go. Qed.
  Hint Resolve rr_ALPHA : rr.
  Lemma rr_WSP : R WSP (r_WSP).
  Proof. unfold WSP, r_WSP; unfold some, two, four, r_some, r_two, r_four, r_one, r_many, r_optional. go. Qed.
  Hint Resolve rr_WSP : rr.
  Lemma rr_CRLF : R CRLF (r_CRLF).
  Proof. unfold CRLF, r_CRLF; unfold some, two, four, r_some, r_two, r_four, r_one, r_many, r_optional. go. Qed.
  Hint Resolve rr_CRLF : rr.
  Lemma rr_DQUOTE : R DQUOTE (r_DQUOTE).
  Proof. unfold DQUOTE, r_DQUOTE; unfold some, two, four, r_some, r_two, r_four, r_one, r_many, r_optional. go. Qed.
  Hint Resolve rr_DQUOTE : rr.
  Lemma rr_VCHAR : R (VCHAR on) (r_VCHAR b).
  Proof. unfold VCHAR, r_VCHAR; unfold some, two, four, r_some, r_two, r_four, r_one, r_many, r_optional. go. Qed.
  Hint Resolve rr_VCHAR : rr.
  Lemma rr_obs_NO_WS_CTL : R obs_NO_WS_CTL (r_obs_NO_WS_CTL).
  Proof. unfold obs_NO_WS_CTL, r_obs_NO_WS_CTL; unfold some, two, four, r_some, r_two, r_four, r_one, r_many, r_optional. go. Qed.
  Hint Resolve rr_obs_NO_WS_CTL : rr.
  Lemma rr_obs_qp : R obs_qp (r_obs_qp).
  Proof. unfold obs_qp, r_obs_qp; unfold some, two, four, r_some, r_two, r_four, r_one, r_many, r_optional. go. Qed.
  Hint Resolve rr_obs_qp : rr.
  Lemma rr_quoted_pair : R (quoted_pair on) (r_quoted_pair b).
  Proof. unfold quoted_pair, r_quoted_pair; unfold some, two, four, r_some, r_two, r_four, r_one, r_many, r_optional. go. Qed.
  Hint Resolve rr_quoted_pair : rr.
  Lemma rr_obs_FWS : R obs_FWS (r_obs_FWS).
  Proof. unfold obs_FWS, r_obs_FWS; unfold some, two, four, r_some, r_two, r_four, r_one, r_many, r_optional. go. Qed.
  Hint Resolve rr_obs_FWS : rr.
  Lemma rr_FWS : R (FWS on) (r_FWS b).
  Proof. unfold FWS, r_FWS; unfold some, two, four, r_some, r_two, r_four, r_one, r_many, r_optional. go. Qed.
  Hint Resolve rr_FWS : rr.
  Lemma rr_ctext : R (ctext on) (r_ctext b).
  Proof. unfold ctext, r_ctext; unfold some, two, four, r_some, r_two, r_four, r_one, r_many, r_optional. go. Qed.
  Hint Resolve rr_ctext : rr.
  Lemma rr_CFWS : R (CFWS on) (r_CFWS b cm).
  Proof. unfold CFWS, r_CFWS; unfold some, two, four, r_some, r_two, r_four, r_one, r_many, r_optional. go. Qed.
  Hint Resolve rr_CFWS : rr.
  Lemma rr_atext : R (atext on) (r_atext b).
  Proof. unfold atext, r_atext; unfold some, two, four, r_some, r_two, r_four, r_one, r_many, r_optional. go. Qed.
  Hint Resolve rr_atext : rr.
  Lemma rr_rfc_atom : R (rfc_atom on) (r_rfc_atom b cm).
  Proof. unfold rfc_atom, r_rfc_atom; unfold some, two, four, r_some, r_two, r_four, r_one, r_many, r_optional. go. Qed.
  Hint Resolve rr_rfc_atom : rr.
  Lemma rr_dot_atom_text : R (dot_atom_text on) (r_dot_atom_text b).
  Proof. unfold dot_atom_text, r_dot_atom_text; unfold some, two, four, r_some, r_two, r_four, r_one, r_many, r_optional. go. Qed.
  Hint Resolve rr_dot_atom_text : rr.
  Lemma rr_rfc_dot_atom : R (rfc_dot_atom on) (r_rfc_dot_atom b cm).
  Proof. unfold rfc_dot_atom, r_rfc_dot_atom; unfold some, two, four, r_some, r_two, r_four, r_one, r_many, r_optional. go. Qed.
  Hint Resolve rr_rfc_dot_atom : rr.
  Lemma rr_qtext : R (qtext on) (r_qtext b).
  Proof. unfold qtext, r_qtext; unfold some, two, four, r_some, r_two, r_four, r_one, r_many, r_optional. go. Qed.
  Hint Resolve rr_qtext : rr.
  Lemma rr_qcontent : R (qcontent on) (r_qcontent b).
  Proof. unfold qcontent, r_qcontent; unfold some, two, four, r_some, r_two, r_four, r_one, r_many, r_optional. go. Qed.
  Hint Resolve rr_qcontent : rr.
  Lemma rr_rfc_quoted_string : R (rfc_quoted_string on) (r_rfc_quoted_string b cm).
  Proof. unfold rfc_quoted_string, r_rfc_quoted_string; unfold some, two, four, r_some, r_two, r_four, r_one, r_many, r_optional. go. Qed.
  Hint Resolve rr_rfc_quoted_string : rr.
  Lemma rr_rfc_word : R (rfc_word on) (r_rfc_word b cm ew).
  Proof. unfold rfc_word, r_rfc_word; unfold some, two, four, r_some, r_two, r_four, r_one, r_many, r_optional. go. Qed.
  Hint Resolve rr_rfc_word : rr.
  Lemma rr_obs_phrase : R (obs_phrase on) (r_obs_phrase b cm ew).
  Proof. unfold obs_phrase, r_obs_phrase; unfold some, two, four, r_some, r_two, r_four, r_one, r_many, r_optional. go. Qed.
  Hint Resolve rr_obs_phrase : rr.
  Lemma rr_phrase : R (phrase on) (r_phrase b cm ew).
  Proof. unfold phrase, r_phrase; unfold some, two, four, r_some, r_two, r_four, r_one, r_many, r_optional. go. Qed.
  Hint Resolve rr_phrase : rr.
  Lemma rr_obs_local_part : R (obs_local_part on) (r_obs_local_part b cm ew).
  Proof. unfold obs_local_part, r_obs_local_part; unfold some, two, four, r_some, r_two, r_four, r_one, r_many, r_optional. go. Qed.
  Hint Resolve rr_obs_local_part : rr.
  Lemma rr_local_part : R (local_part on) (r_local_part b cm ew).
  Proof. unfold local_part, r_local_part; unfold some, two, four, r_some, r_two, r_four, r_one, r_many, r_optional. go. Qed.
  Hint Resolve rr_local_part : rr.
  Lemma rr_obs_dtext : R (obs_dtext on) (r_obs_dtext b).
  Proof. unfold obs_dtext, r_obs_dtext; unfold some, two, four, r_some, r_two, r_four, r_one, r_many, r_optional. go. Qed.
  Hint Resolve rr_obs_dtext : rr.
  Lemma rr_rfc_dtext : R (rfc_dtext on) (r_rfc_dtext b).
  Proof. unfold rfc_dtext, r_rfc_dtext; unfold some, two, four, r_some, r_two, r_four, r_one, r_many, r_optional. go. Qed.
  Hint Resolve rr_rfc_dtext : rr.
  Lemma rr_domain_literal : R (domain_literal on) (r_domain_literal b cm).
  Proof. unfold domain_literal, r_domain_literal; unfold some, two, four, r_some, r_two, r_four, r_one, r_many, r_optional. go. Qed.
  Hint Resolve rr_domain_literal : rr.
  Lemma rr_obs_domain : R (obs_domain on) (r_obs_domain b cm).
  Proof. unfold obs_domain, r_obs_domain; unfold some, two, four, r_some, r_two, r_four, r_one, r_many, r_optional. go. Qed.
  Hint Resolve rr_obs_domain : rr.
  Lemma rr_domain : R (domain on) (r_domain b cm).
  Proof. unfold domain, r_domain; unfold some, two, four, r_some, r_two, r_four, r_one, r_many, r_optional. go. Qed.
  Hint Resolve rr_domain : rr.
  Lemma rr_addr_spec : R (addr_spec on) (r_addr_spec b cm ew).
  Proof. unfold addr_spec, r_addr_spec; unfold some, two, four, r_some, r_two, r_four, r_one, r_many, r_optional. go. Qed.
  Hint Resolve rr_addr_spec : rr.
  Lemma rr_obs_domain_list : R (obs_domain_list on) (r_obs_domain_list b cm).
  Proof. unfold obs_domain_list, r_obs_domain_list; unfold some, two, four, r_some, r_two, r_four, r_one, r_many, r_optional. go. Qed.
  Hint Resolve rr_obs_domain_list : rr.
  Lemma rr_obs_route : R (obs_route on) (r_obs_route b cm).
  Proof. unfold obs_route, r_obs_route; unfold some, two, four, r_some, r_two, r_four, r_one, r_many, r_optional. go. Qed.
  Hint Resolve rr_obs_route : rr.
  Lemma rr_obs_angle_addr : R (obs_angle_addr on) (r_obs_angle_addr b cm ew).
  Proof. unfold obs_angle_addr, r_obs_angle_addr; unfold some, two, four, r_some, r_two, r_four, r_one, r_many, r_optional. go. Qed.
  Hint Resolve rr_obs_angle_addr : rr.
  Lemma rr_angle_addr : R (angle_addr on) (r_angle_addr b cm ew).
  Proof. unfold angle_addr, r_angle_addr; unfold some, two, four, r_some, r_two, r_four, r_one, r_many, r_optional. go. Qed.
  Hint Resolve rr_angle_addr : rr.
  Lemma rr_display_name : R (display_name on) (r_display_name b cm ew).
  Proof. unfold display_name, r_display_name; unfold some, two, four, r_some, r_two, r_four, r_one, r_many, r_optional. go. Qed.
  Hint Resolve rr_display_name : rr.
  Lemma rr_name_addr : R (name_addr on) (r_name_addr b cm ew).
  Proof. unfold name_addr, r_name_addr; unfold some, two, four, r_some, r_two, r_four, r_one, r_many, r_optional. go. Qed.
  Hint Resolve rr_name_addr : rr.
  Lemma rr_mailbox : R (mailbox on) (r_mailbox b cm ew).
  Proof. unfold mailbox, r_mailbox; unfold some, two, four, r_some, r_two, r_four, r_one, r_many, r_optional. go. Qed.
  Hint Resolve rr_mailbox : rr.
  Lemma rr_obs_mbox_list : R (obs_mbox_list on) (r_obs_mbox_list b cm ew).
  Proof. unfold obs_mbox_list, r_obs_mbox_list; unfold some, two, four, r_some, r_two, r_four, r_one, r_many, r_optional. go. Qed.
  Hint Resolve rr_obs_mbox_list : rr.
  Lemma rr_mailbox_list : R (mailbox_list on) (r_mailbox_list b cm ew).
  Proof. unfold mailbox_list, r_mailbox_list; unfold some, two, four, r_some, r_two, r_four, r_one, r_many, r_optional. go. Qed.
  Hint Resolve rr_mailbox_list : rr.
  Lemma rr_obs_group_list : R (obs_group_list on) (r_obs_group_list b cm).
  Proof. unfold obs_group_list, r_obs_group_list; unfold some, two, four, r_some, r_two, r_four, r_one, r_many, r_optional. go. Qed.
  Hint Resolve rr_obs_group_list : rr.
  Lemma rr_group_list : R (group_list on) (r_group_list b cm ew).
  Proof. unfold group_list, r_group_list; unfold some, two, four, r_some, r_two, r_four, r_one, r_many, r_optional. go. Qed.
  Hint Resolve rr_group_list : rr.
  Lemma rr_group : R (group on) (r_group b cm ew).
  Proof. unfold group, r_group; unfold some, two, four, r_some, r_two, r_four, r_one, r_many, r_optional. go. Qed.
  Hint Resolve rr_group : rr.
  Lemma rr_address : R (address on) (r_address b cm ew).
  Proof. unfold address, r_address; unfold some, two, four, r_some, r_two, r_four, r_one, r_many, r_optional. go. Qed.
  Hint Resolve rr_address : rr.
  Lemma rr_obs_addr_list : R (obs_addr_list on) (r_obs_addr_list b cm ew).
  Proof. unfold obs_addr_list, r_obs_addr_list; unfold some, two, four, r_some, r_two, r_four, r_one, r_many, r_optional. go. Qed.
  Hint Resolve rr_obs_addr_list : rr.
  Lemma rr_address_list : R (address_list on) (r_address_list b cm ew).
  Proof. unfold address_list, r_address_list; unfold some, two, four, r_some, r_two, r_four, r_one, r_many, r_optional. go. Qed.
  Hint Resolve rr_address_list : rr.
  Lemma rr_rfc_day_name : R rfc_day_name (r_rfc_day_name).
  Proof. unfold rfc_day_name, r_rfc_day_name; unfold some, two, four, r_some, r_two, r_four, r_one, r_many, r_optional. go. Qed.
  Hint Resolve rr_rfc_day_name : rr.
  Lemma rr_rfc_month : R rfc_month (r_rfc_month).
  Proof. unfold rfc_month, r_rfc_month; unfold some, two, four, r_some, r_two, r_four, r_one, r_many, r_optional. go. Qed.
  Hint Resolve rr_rfc_month : rr.
  Lemma rr_day_of_week : R (day_of_week on) (r_day_of_week b cm).
  Proof. unfold day_of_week, r_day_of_week; unfold some, two, four, r_some, r_two, r_four, r_one, r_many, r_optional. go. Qed.
  Hint Resolve rr_day_of_week : rr.
  Lemma rr_rfc_day : R (rfc_day on) (r_rfc_day b cm).
  Proof. unfold rfc_day, r_rfc_day; unfold some, two, four, r_some, r_two, r_four, r_one, r_many, r_optional. go. Qed.
  Hint Resolve rr_rfc_day : rr.
  Lemma rr_rfc_year : R (rfc_year on) (r_rfc_year b cm).
  Proof. unfold rfc_year, r_rfc_year; unfold some, two, four, r_some, r_two, r_four, r_one, r_many, r_optional. go. Qed.
  Hint Resolve rr_rfc_year : rr.
  Lemma rr_rfc_hour : R (rfc_hour on) (r_rfc_hour b cm).
  Proof. unfold rfc_hour, r_rfc_hour; unfold some, two, four, r_some, r_two, r_four, r_one, r_many, r_optional. go. Qed.
  Hint Resolve rr_rfc_hour : rr.
  Lemma rr_rfc_minute : R (rfc_minute on) (r_rfc_minute b cm).
  Proof. unfold rfc_minute, r_rfc_minute; unfold some, two, four, r_some, r_two, r_four, r_one, r_many, r_optional. go. Qed.
  Hint Resolve rr_rfc_minute : rr.
  Lemma rr_rfc_second : R (rfc_second on) (r_rfc_second b cm).
  Proof. unfold rfc_second, r_rfc_second; unfold some, two, four, r_some, r_two, r_four, r_one, r_many, r_optional. go. Qed.
  Hint Resolve rr_rfc_second : rr.
  Lemma rr_obs_zone : R obs_zone (r_obs_zone).
  Proof. unfold obs_zone, r_obs_zone; unfold some, two, four, r_some, r_two, r_four, r_one, r_many, r_optional. go. Qed.
  Hint Resolve rr_obs_zone : rr.
  Lemma rr_military_zone : R military_zone (r_military_zone).
  Proof. unfold military_zone, r_military_zone; unfold some, two, four, r_some, r_two, r_four, r_one, r_many, r_optional. go. Qed.
  Hint Resolve rr_military_zone : rr.
  Lemma rr_rfc_zone : R (rfc_zone on) (r_rfc_zone b).
  Proof. unfold rfc_zone, r_rfc_zone; unfold some, two, four, r_some, r_two, r_four, r_one, r_many, r_optional. go. Qed.
  Hint Resolve rr_rfc_zone : rr.
  Lemma rr_time_of_day : R (time_of_day on) (r_time_of_day b cm).
  Proof. unfold time_of_day, r_time_of_day; unfold some, two, four, r_some, r_two, r_four, r_one, r_many, r_optional. go. Qed.
  Hint Resolve rr_time_of_day : rr.
  Lemma rr_rfc_date_time : R (rfc_date_time on) (r_rfc_date_time b cm).
  Proof. unfold rfc_date_time, r_rfc_date_time; unfold some, two, four, r_some, r_two, r_four, r_one, r_many, r_optional. go. Qed.
  Hint Resolve rr_rfc_date_time : rr.
End reflect.

(** ** From above and from below *)
Definition any_comment : rx := RWord (fun x => match x with c :: _ => N.eqb c 40 | [] => false end).
Definition any_encoded : rx := RWord (fun x => match x with c :: _ => N.eqb c 61 | [] => false end).

Lemma many_within P Q : within P Q -> within (many P) (many Q).
Proof. intros H x M. induction M as [|u v Hu _ IH]; constructor; auto. Qed.

Lemma named_iff l x : named l x <-> den (r_named l) x.
Proof.
  unfold named. cbn [den r_named]. rewrite existsb_exists. split.
  - intros H. exists (to_lower x). split; [exact H | apply eq_text_iff; reflexivity].
  - intros (y & Hy & E). apply eq_text_iff in E. subst y. exact Hy.
Qed.

Section above.
  Variable on : form -> Prop.
  Variable b : form -> bool.
  Hypothesis Hb : forall f, on f -> b f = true.
  Let R (P : texts) (a : rx) := within P (den a).

  Lemma comment_above : within (rfc_comment on) (den any_comment).
  Proof. intros x [y u _ _]. reflexivity. Qed.
  Lemma encoded_above : within full_encoded_word (den any_encoded).
  Proof. intros x (c & e & t & -> & _). reflexivity. Qed.

  Lemma may_above f P a : R P a -> R (may on f P) (r_may b f a).
  Proof. intros H x [Hf Hx]. unfold r_may. rewrite (Hb f Hf). exact (H x Hx). Qed.
  Lemma cat_above P Q a a' : R P a -> R Q a' -> R (P ;; Q) (RCat a a').
  Proof. intros H1 H2 x (u & v & -> & Hu & Hv). exists u, v. split; [reflexivity|]. split; [exact (H1 u Hu) | exact (H2 v Hv)]. Qed.
  Lemma either_above P Q a a' : R P a -> R Q a' -> R (P <|> Q) (RAlt a a').
  Proof. intros H1 H2 x [H|H]; [left; exact (H1 x H) | right; exact (H2 x H)]. Qed.
  Lemma many_above P a : R P a -> R (many P) (RMany a).
  Proof. apply many_within. Qed.
  Lemma opt_above P a : R P a -> R (optional P) (ROpt a).
  Proof. intros H x [->|Hx]; [now left | right; exact (H x Hx)]. Qed.
  Lemma word_above l : R (fun x => x = l) (r_word l).
  Proof. intros x ->. apply eq_text_iff. reflexivity. Qed.
  Lemma named_above l : R (named l) (r_named l).
  Proof. intros x. apply named_iff. Qed.
  Lemma cfws_above : R (CFWS on) (r_CFWS b any_comment).
  Proof.
    apply (rr_CFWS on b any_comment R); first [exact word_above | exact cat_above | exact either_above | exact many_above | exact opt_above | exact may_above | exact comment_above | intros p x H; exact H].
  Qed.
  Lemma words_above : R (may on X_encoded_words (encoded_words on)) (r_may b X_encoded_words (r_encoded_words b any_comment any_encoded)).
  Proof.
    apply may_above. unfold encoded_words, r_encoded_words, some, r_some. assert (X : R (optional (CFWS on) ;; full_encoded_word ;; optional (CFWS on)) (RCat (ROpt (r_CFWS b any_comment)) (RCat any_encoded (ROpt (r_CFWS b any_comment))))).
    { apply cat_above; [apply opt_above; exact cfws_above | apply cat_above; [exact encoded_above | apply opt_above; exact cfws_above]]. }
    apply cat_above; [exact X | apply many_above; exact X].
  Qed.

  Lemma address_list_above : within (address_list on) (den (r_address_list b any_comment any_encoded)).
  Proof.
    apply (rr_address_list on b any_comment any_encoded R); first [exact word_above | exact cat_above | exact either_above | exact many_above | exact opt_above | exact may_above | exact comment_above | exact words_above | intros p x H; exact H].
  Qed.
  Lemma date_time_above : within (rfc_date_time on) (den (r_rfc_date_time b any_comment)).
  Proof.
    apply (rr_rfc_date_time on b any_comment R); first [exact word_above | exact named_above | exact cat_above | exact either_above | exact many_above | exact opt_above | exact may_above | exact comment_above | intros p x H; exact H].
  Qed.
End above.

Section below.
  Variable on : form -> Prop.
  Variable b : form -> bool.
  Hypothesis Hb : forall f, b f = true -> on f.
  Variable ew : rx.
  Hypothesis Hew : within (den ew) full_encoded_word.
  Let R (P : texts) (a : rx) := within (den a) P.

  Lemma may_below f P a : R P a -> R (may on f P) (r_may b f a).
  Proof. intros H x. unfold r_may. destruct (b f) eqn:E; [|intros []]. intros Hx. split; [exact (Hb f E) | exact (H x Hx)]. Qed.
  Lemma cat_below P Q a a' : R P a -> R Q a' -> R (P ;; Q) (RCat a a').
  Proof. intros H1 H2 x (u & v & -> & Hu & Hv). exists u, v. split; [reflexivity|]. split; [exact (H1 u Hu) | exact (H2 v Hv)]. Qed.
  Lemma either_below P Q a a' : R P a -> R Q a' -> R (P <|> Q) (RAlt a a').
  Proof. intros H1 H2 x [H|H]; [left; exact (H1 x H) | right; exact (H2 x H)]. Qed.
  Lemma many_below P a : R P a -> R (many P) (RMany a).
  Proof. apply many_within. Qed.
  Lemma opt_below P a : R P a -> R (optional P) (ROpt a).
  Proof. intros H x [->|Hx]; [now left | right; exact (H x Hx)]. Qed.
  Lemma word_below l : R (fun x => x = l) (r_word l).
  Proof. intros x H. apply eq_text_iff. exact H. Qed.
  Lemma named_below l : R (named l) (r_named l).
  Proof. intros x. apply named_iff. Qed.
  Lemma comment_below : R (rfc_comment on) RNone.
  Proof. intros x []. Qed.
  Lemma cfws_below : R (CFWS on) (r_CFWS b RNone).
  Proof.
    apply (rr_CFWS on b RNone R); first [exact word_below | exact cat_below | exact either_below | exact many_below | exact opt_below | exact may_below | exact comment_below | intros p x H; exact H].
  Qed.
  Lemma words_below : R (may on X_encoded_words (encoded_words on)) (r_may b X_encoded_words (r_encoded_words b RNone ew)).
  Proof.
    apply may_below. unfold encoded_words, r_encoded_words, some, r_some. assert (X : R (optional (CFWS on) ;; full_encoded_word ;; optional (CFWS on)) (RCat (ROpt (r_CFWS b RNone)) (RCat ew (ROpt (r_CFWS b RNone))))).
    { apply cat_below; [apply opt_below; exact cfws_below | apply cat_below; [exact Hew | apply opt_below; exact cfws_below]]. }
    apply cat_below; [exact X | apply many_below; exact X].
  Qed.

  Lemma address_list_below : within (den (r_address_list b RNone ew)) (address_list on).
  Proof.
    apply (rr_address_list on b RNone ew R); first [exact word_below | exact cat_below | exact either_below | exact many_below | exact opt_below | exact may_below | exact comment_below | exact words_below | intros p x H; exact H].
  Qed.
  Lemma date_time_below : within (den (r_rfc_date_time b RNone)) (rfc_date_time on).
  Proof.
    apply (rr_rfc_date_time on b RNone R); first [exact word_below | exact named_below | exact cat_below | exact either_below | exact many_below | exact opt_below | exact may_below | exact comment_below | intros p x H; exact H].
  Qed.
End below.

(** ** Texts that are, and are not, in RFC 5322 *)
Definition among (l : list form) (f : form) : bool :=
  existsb (fun g => match f, g with
    | O_qp, O_qp | O_ctext, O_ctext | O_qtext, O_qtext | O_phrase, O_phrase | O_FWS, O_FWS | O_day_of_week, O_day_of_week | O_day, O_day
    | O_year, O_year | O_hour, O_hour | O_minute, O_minute | O_second, O_second | O_zone, O_zone | O_angle_addr, O_angle_addr
    | O_mbox_list, O_mbox_list | O_addr_list, O_addr_list | O_group_list, O_group_list | O_local_part, O_local_part | O_domain, O_domain
    | O_dtext, O_dtext | O_military, O_military | O_long_obs_year, O_long_obs_year | U_characters, U_characters
    | U_high_characters, U_high_characters | Long_year, Long_year | X_encoded_words, X_encoded_words | X_final_period, X_final_period
    | X_at_in_name, X_at_in_name | X_port, X_port | X_empty_angle, X_empty_angle | X_group_quote, X_group_quote | X_open_group, X_open_group
    | X_semicolon, X_semicolon | X_short_hour, X_short_hour | X_no_sign, X_no_sign | X_UTC, X_UTC | X_no_zone, X_no_zone => true
    | _, _ => false end) l.

Lemma among_iff l f : among l f = true <-> In f l.
Proof.
  unfold among. rewrite existsb_exists. split.
  - intros (g & Hg & E). destruct f, g; try discriminate E; exact Hg.
  - intros H. exists f. split; [exact H | destruct f; reflexivity].
Qed.

Lemma not_in_standard x : matched x true (r_address_list (fun f => negb (among extensions f)) any_comment any_encoded) = false -> ~ address_list standard x.
Proof.
  intros M H. apply not_matched in M. apply M. revert H. apply address_list_above. intros f Hf. apply negb_true_iff. destruct (among extensions f) eqn:E; [|reflexivity]. apply among_iff in E. contradiction (Hf E).
Qed.

Lemma not_a_standard_date x : matched x true (r_rfc_date_time (fun f => negb (among extensions f)) any_comment) = false -> ~ rfc_date_time standard x.
Proof.
  intros M H. apply not_matched in M. apply M. revert H. apply date_time_above. intros f Hf. apply negb_true_iff. destruct (among extensions f) eqn:E; [|reflexivity]. apply among_iff in E. contradiction (Hf E).
Qed.
