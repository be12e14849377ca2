(** C66, C67, continued: each extension is one. *)
From Coq Require Import String List NArith ZArith Bool Arith Lia.
From Verif Require Import Lexer Grammar Utf8 Strs Mime GoTime Parser Walker Api Spec AddrText EncText AcceptText AcceptFacts PropAccept Rfc5322 RfcFacts RfcDecide PropRfc.
Import ListNotations.

(** ** Statements *)

(** the extensions in address lists, and those in date-times *)
Definition address_extensions : list form :=
  [X_encoded_words; X_final_period; X_at_in_name; X_port; X_empty_angle; X_group_quote; X_open_group; X_semicolon].
Definition date_extensions : list form := [X_short_hour; X_no_sign; X_UTC; X_no_zone].

(** the standard without the forms of a list, and one extension *)
Definition standard_and (limits : list form) (f : form) (g : form) : Prop := but standard limits g \/ g = f.

(** ** Proofs *)
Definition standard_and_b (limits : list form) (f : form) (g : form) : bool := (negb (among extensions g) && negb (among limits g)) || among [f] g.

Lemma standard_and_on limits f g : standard_and_b limits f g = true -> standard_and limits f g.
Proof.
  unfold standard_and_b, standard_and. intros H. apply orb_true_iff in H as [H|H].
  - apply andb_true_iff in H as [H1 H2]. left. apply negb_true_iff in H1, H2. split; intros X; apply among_iff in X; congruence.
  - right. apply among_iff in H as [H|[]]. auto.
Qed.

(** a text that is checked for both *)
Lemma address_extension f ew s : In f address_extensions -> within (den ew) full_encoded_word -> s <> [] ->
  matched (decode s) false (r_address_list (standard_and_b address_limits f) RNone ew) = true ->
  matched (decode s) true (r_address_list (fun f => negb (among extensions f)) any_comment any_encoded) = false ->
  address_list (standard_and address_limits f) (decode s) /\ ~ address_list standard (decode s) /\ forall e, exists l, ParseAddressList e s = Ret l None.
Proof.
  intros Hf Hew Hs M1 M2.
  assert (A : address_list (standard_and address_limits f) (decode s)).
  { apply (address_list_below (standard_and address_limits f) (standard_and_b address_limits f) (standard_and_on address_limits f) ew Hew). apply is_matched. exact M1. }
  split; [exact A|]. split; [apply not_in_standard; exact M2|]. intros e.
  assert (T : address_list_texts (decode s)).
  { revert A. apply limits_address. intros g [[_ L]| ->]; [exact L|]. intros X. repeat destruct Hf as [<-|Hf]; try contradiction Hf; repeat destruct X as [X|X]; try discriminate X; exact X. }
  pose proof (proj2 (before_addressList _) T) as [B _].
  apply C56_accepted_address_lists; [exact Hs|]. rewrite (bmps_kept _ B). split; [exact T | now apply bmps_lexes].
Qed.

Lemma date_extension f s : In f date_extensions -> s <> [] ->
  matched (decode s) false (r_rfc_date_time (standard_and_b date_limits f) RNone) = true ->
  matched (decode s) true (r_rfc_date_time (fun f => negb (among extensions f)) any_comment) = false ->
  rfc_date_time (standard_and date_limits f) (decode s) /\ ~ rfc_date_time standard (decode s) /\ forall e, exists t, ParseDateTime e s = Ret t None.
Proof.
  intros Hf Hs M1 M2.
  assert (A : rfc_date_time (standard_and date_limits f) (decode s)).
  { apply (date_time_below (standard_and date_limits f) (standard_and_b date_limits f) (standard_and_on date_limits f)). apply is_matched. exact M1. }
  split; [exact A|]. split; [apply not_a_standard_date; exact M2|]. intros e.
  assert (T : date_texts (decode s)).
  { revert A. apply limits_date. intros g [[_ L]| ->]; [exact L|]. intros X. repeat destruct Hf as [<-|Hf]; try contradiction Hf; repeat destruct X as [X|X]; try discriminate X; exact X. }
  pose proof (proj2 (before_dateTime _) T) as [B _].
  apply C57_accepted_dates; [exact Hs|]. rewrite (bmps_kept _ B). split; [exact T | now apply bmps_lexes].
Qed.

(** an encoded word whose text is a comma *)
Definition comma_word : gostring := bs "=?u?q?,?=".
Lemma comma_encoded : within (den (r_word comma_word)) full_encoded_word.
Proof.
  intros x H. apply eq_text_iff in H. subst x. exists (bs "u"), (bs "q"), (bs ","). split; [reflexivity|].
  repeat split; try discriminate; constructor; try reflexivity; constructor.
Qed.

Lemma none_encoded : within (den RNone) full_encoded_word.
Proof. intros x []. Qed.

(** Every extension is one: for each there is a text that the standard and this extension give, that is accepted in
    every environment, and that the standard with all its obsolete forms does not give. *)
Theorem C66_extensions : forall f, In f address_extensions -> ~ standard f /\ exists s,
  address_list (standard_and address_limits f) (decode s) /\ ~ address_list standard (decode s) /\
  forall e, exists l, ParseAddressList e s = Ret l None.
Proof.
  intros f Hf. split; [intros H; apply H; unfold extensions; unfold address_extensions in Hf; cbn [In] in *; intuition|].
  assert (Hf' := Hf). unfold address_extensions in Hf'. cbn [In] in Hf'.
  decompose [or] Hf'; clear Hf'; try contradiction; subst f.
  - exists (comma_word ++ bs "<a@b>"). apply (address_extension _ (r_word comma_word)); [exact Hf | exact comma_encoded | discriminate | vm_compute; reflexivity | vm_compute; reflexivity].
  - exists (bs "a.@b"). apply (address_extension _ RNone); [exact Hf | exact none_encoded | discriminate | vm_compute; reflexivity | vm_compute; reflexivity].
  - exists (bs "a@b<c@d>"). apply (address_extension _ RNone); [exact Hf | exact none_encoded | discriminate | vm_compute; reflexivity | vm_compute; reflexivity].
  - exists (bs "a@b:1"). apply (address_extension _ RNone); [exact Hf | exact none_encoded | discriminate | vm_compute; reflexivity | vm_compute; reflexivity].
  - exists (bs "<>"). apply (address_extension _ RNone); [exact Hf | exact none_encoded | discriminate | vm_compute; reflexivity | vm_compute; reflexivity].
  - exists (bs """g:;"). apply (address_extension _ RNone); [exact Hf | exact none_encoded | discriminate | vm_compute; reflexivity | vm_compute; reflexivity].
  - exists (bs "g:"). apply (address_extension _ RNone); [exact Hf | exact none_encoded | discriminate | vm_compute; reflexivity | vm_compute; reflexivity].
  - exists (bs "a@b;c@d"). apply (address_extension _ RNone); [exact Hf | exact none_encoded | discriminate | vm_compute; reflexivity | vm_compute; reflexivity].
Qed.

Theorem C67_extensions : forall f, In f date_extensions -> ~ standard f /\ exists s,
  rfc_date_time (standard_and date_limits f) (decode s) /\ ~ rfc_date_time standard (decode s) /\
  forall e, exists t, ParseDateTime e s = Ret t None.
Proof.
  intros f Hf. split; [intros H; apply H; unfold extensions; unfold date_extensions in Hf; cbn [In] in *; intuition|].
  assert (Hf' := Hf). unfold date_extensions in Hf'. cbn [In] in Hf'.
  decompose [or] Hf'; clear Hf'; try contradiction; subst f.
  - exists (bs "1 Jan 1997 2:03 +0000"). apply date_extension; [exact Hf | discriminate | vm_compute; reflexivity | vm_compute; reflexivity].
  - exists (bs "1 Jan 1997 02:03 0000"). apply date_extension; [exact Hf | discriminate | vm_compute; reflexivity | vm_compute; reflexivity].
  - exists (bs "1 Jan 1997 02:03UTC"). apply date_extension; [exact Hf | discriminate | vm_compute; reflexivity | vm_compute; reflexivity].
  - exists (bs "1 Jan 1997 02:03"). apply date_extension; [exact Hf | discriminate | vm_compute; reflexivity | vm_compute; reflexivity].
Qed.

Print Assumptions C66_extensions.
Print Assumptions C67_extensions.
