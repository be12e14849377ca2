(** C56, C57: exactly which texts are accepted, on characters. *)
From Coq Require Import String List NArith ZArith Bool Arith Lia Setoid Morphisms.
From Verif Require Import Lexer Grammar Utf8 Strs Mime GoTime Parser Walker Api Spec ParserFacts
  WalkerFacts Static Total Cfws LangFacts LexFacts Utf8Facts First DateSpec AddrSpec Chosen AddrSem CharFacts PropApi PropInv
  ScanSpec AddrText MboxList TextLang EncText EncConv PropStable DateAccept AcceptText AcceptFacts.
Import ListNotations.
Local Open Scope text_scope.

(** ** Names in dates *)
Definition low (w : list rune) : texts := fun x => to_lower x = w.

Lemma low_hi r : (128 <= r)%N -> lower_byte r = r.
Proof. intros H. unfold lower_byte, in_range. replace (r <=? 90)%N with false by (symmetry; apply N.leb_gt; lia). now rewrite andb_false_r. Qed.

Lemma cl_letter l : forallb (fun l => class_ok [(l - 52)%N] (fun r => (lower_byte r =? l)%N)) (bs "abcdefghijklmnopqrstuvwxyz") = true ->
  In l (bs "abcdefghijklmnopqrstuvwxyz") -> same (cl (Tok (l - 52)%N)) (low [l]).
Proof.
  intros C I1. rewrite forallb_forall in C. specialize (C l I1).
  assert (L : (97 <= l <= 122)%N) by (cbn in I1; repeat (destruct I1 as [<-|I1]; [lia|]); destruct I1).
  unfold Tok. rewrite (cl_cls [(l - 52)%N] (fun r => (lower_byte r =? l)%N)).
  - intros x. split.
    + intros (r & -> & Hr). apply N.eqb_eq in Hr. unfold low. cbn. now rewrite Hr.
    + intros H. unfold low in H. destruct x as [|r [|? ?]]; try discriminate H. injection H as H. exists r. split; [reflexivity | now apply N.eqb_eq].
  - apply (class_spec [(l - 52)%N] (fun r => (lower_byte r =? l)%N)); [exact C|]. intros r Hr. rewrite low_hi by lia. transitivity false; [apply N.eqb_neq; lia|].
    symmetry. apply not_true_is_false. intros M. apply memb_In in M. destruct M as [M|[]]. unfold T_UTF8NonAscii in M. lia.
  - intros r Hr. apply N.eqb_eq in Hr. unfold bmp. apply N.leb_le. unfold lower_byte, in_range in Hr. destruct ((65 <=? r) && (r <=? 90))%N eqn:E; [|lia].
    apply andb_true_iff in E as [_ E]. apply N.leb_le in E. lia.
Qed.

Lemma low_cons l w : same (low [l] ;; low w) (low (l :: w)).
Proof.
  intros x. unfold low. split.
  - intros (u & v & -> & Hu & Hv). transitivity (to_lower u ++ to_lower v); [apply map_app | now rewrite Hu, Hv].
  - intros H. destruct x as [|r x]; [discriminate H|]. unfold to_lower in H. cbn [map] in H. injection H as H1 H2. exists [r], x. split; [reflexivity|]. split; [unfold to_lower; cbn [map]; now rewrite H1 | exact H2].
Qed.

(** the grammar's expression for a name *)
Definition spelled (w : list rune) : gexp := seqs (map (fun l => Tok (l - 52)%N) w).

Lemma letters_class : forallb (fun l => class_ok [(l - 52)%N] (fun r => (lower_byte r =? l)%N)) (bs "abcdefghijklmnopqrstuvwxyz") = true.
Proof. vm_compute. reflexivity. Qed.

Lemma cl_spelled w : w <> [] -> Forall (fun l => In l (bs "abcdefghijklmnopqrstuvwxyz")) w -> same (cl (spelled w)) (low w).
Proof.
  intros N F. unfold spelled. induction F as [|l w Hl F IH]; [contradiction|]. destruct w as [|l' w]; [exact (cl_letter l letters_class Hl)|].
  cbn [map seqs]. cbn [map seqs] in IH. rewrite cl_seq, (cl_letter l letters_class Hl), IH by discriminate. apply low_cons.
Qed.

Definition letters_only (w : list rune) : bool := match w with [] => false | _ => forallb (fun l => memb l (bs "abcdefghijklmnopqrstuvwxyz")) w end.

Lemma cl_names ws : ws <> [] -> forallb letters_only ws = true -> same (cl (alts (map spelled ws))) (named ws).
Proof.
  intros N F. induction ws as [|w ws IH]; [contradiction|]. cbn [forallb] in F. apply andb_true_iff in F as [Hw F].
  assert (S : same (cl (spelled w)) (low w)).
  { destruct w as [|c w]; [discriminate Hw|]. apply cl_spelled; [discriminate|]. apply Forall_forall. intros l Hl. apply memb_In. unfold letters_only in Hw. rewrite forallb_forall in Hw. now apply Hw. }
  destruct ws as [|w' ws].
  - cbn [map alts]. rewrite S. intros x. unfold low, named. cbn [In]. split; [intros <-; now left | intros [->|[]]; reflexivity].
  - cbn [map alts]. cbn [map alts] in IH. rewrite cl_alt, S, IH by (first [discriminate | exact F]). intros x. unfold low, named, either. cbn [In]. split; intros [H|H]; auto.
Qed.

Lemma cl_month : same (cl (Nt R_month)) (named month_names).
Proof. transitivity (cl (body R_month)); [apply cl_nt|]. change (body R_month) with (alts (map spelled month_names)). apply cl_names; [discriminate | vm_compute; reflexivity]. Qed.
Lemma cl_dayName : same (cl (Nt R_dayName)) (named day_names).
Proof. transitivity (cl (body R_dayName)); [apply cl_nt|]. change (body R_dayName) with (alts (map spelled day_names)). apply cl_names; [discriminate | vm_compute; reflexivity]. Qed.
Lemma cl_zoneName : same (cl (Nt R_obsZone)) (named (map fst zone_names)).
Proof. transitivity (cl (body R_obsZone)); [apply cl_nt|]. change (body R_obsZone) with (alts (map spelled (map fst zone_names))). apply cl_names; [discriminate | vm_compute; reflexivity]. Qed.

(** ** The parts of a date *)
Lemma fold_gap : within (optional fold) ogap.
Proof. intros x [->|H]; [exact ogap_nil | right; now left]. Qed.
Lemma fold_gap1 : within fold ogap.
Proof. intros x H. right; now left. Qed.
Lemma absorb P Q : within P Q -> same (P <|> Q) Q.
Proof. intros H x. unfold either. split; [intros [?|?]; auto | auto]. Qed.

Lemma cl_dayOfweek : same (cl (Nt R_dayOfweek)) (ogap ;; named day_names ;; ogap).
Proof.
  rewrite cl_nt. change (body R_dayOfweek) with g_dayOfweek. unfold g_dayOfweek. cbn [alts seqs]. rewrite cl_alt, !cl_seq, cl_ofws, !cl_gap, cl_dayName. apply absorb.
  intros x (u & v & -> & Hu & Hv). exists u, v. split; [reflexivity|]. split; [now apply fold_gap|]. exists v, []. split; [symmetry; apply app_nil_r|]. split; [exact Hv | exact ogap_nil].
Qed.

Lemma cl_day : same (cl (Nt R_day)) (ogap ;; digit ;; optional digit ;; ogap).
Proof.
  rewrite cl_nt. change (body R_day) with g_day. unfold g_day. cbn [alts seqs]. rewrite cl_alt, !cl_seq, cl_ofws, cl_fws, !cl_gap, !cl_opt, cl_digit. apply absorb.
  apply cat_mono; [exact fold_gap|]. apply cat_mono; [apply within_refl|]. apply cat_mono; [apply within_refl | exact fold_gap1].
Qed.

Lemma cl_year : same (cl (Nt R_year)) (fold ;; digit ;; digit ;; digit ;; digit ;; fold <|> ogap ;; digit ;; digit ;; ogap).
Proof. rewrite cl_nt. change (body R_year) with g_year. unfold g_year. cbn [alts seqs]. rewrite cl_alt, !cl_seq, cl_fws, !cl_gap, cl_digit. reflexivity. Qed.

Lemma no_gaps P : within P (ogap ;; P ;; ogap).
Proof. apply tight_gapped. Qed.

Lemma cl_hour : same (cl (Nt R_hour)) (ogap ;; optional digit ;; digit ;; ogap).
Proof.
  rewrite cl_nt. change (body R_hour) with g_hour. unfold g_hour. cbn [alts seqs]. rewrite cl_alt, !cl_seq, !cl_gap, !cl_opt, cl_digit. apply absorb.
  eapply within_trans; [apply no_gaps|]. apply cat_mono; [apply within_refl|]. apply same_sub, cat_assoc.
Qed.

Lemma cl_two r g : body r = alts [seqs [Tok T_Digit; Tok T_Digit]; seqs [Opt (Nt R_cfws); Tok T_Digit; Tok T_Digit; Opt (Nt R_cfws)]] -> g = Nt r -> same (cl g) (ogap ;; digit ;; digit ;; ogap).
Proof.
  intros E ->. transitivity (cl (body r)); [apply cl_nt|]. rewrite E. cbn [alts seqs]. rewrite cl_alt, !cl_seq, !cl_gap, cl_digit. apply absorb.
  eapply within_trans; [apply no_gaps|]. apply cat_mono; [apply within_refl|]. apply same_sub, cat_assoc.
Qed.

Lemma cl_sign : same (cl (Cls [T_Plus; T_Minus])) (lit "+" <|> lit "-").
Proof.
  rewrite (cl_cls [T_Plus; T_Minus] (fun r => (r =? 43) || (r =? 45))%N).
  - intros x. split.
    + intros (r & -> & Hr). apply orb_true_iff in Hr as [Hr|Hr]; apply N.eqb_eq in Hr; subst r; [now left | now right].
    + intros [->| ->]; [exists 43%N | exists 45%N]; auto.
  - apply (class_spec [T_Plus; T_Minus] (fun r => (r =? 43) || (r =? 45))%N); [vm_compute; reflexivity|]. intros r Hr. transitivity false; [|vm_compute; reflexivity].
    apply orb_false_iff. split; apply N.eqb_neq; lia.
  - intros r Hr. apply orb_true_iff in Hr as [Hr|Hr]; apply N.eqb_eq in Hr; subst r; reflexivity.
Qed.

Lemma cl_zone : same (cl (Nt R_zone)) (fold ;; optional (lit "+" <|> lit "-") ;; digit ;; digit ;; digit ;; digit <|> named (map fst zone_names)).
Proof.
  rewrite cl_nt. change (body R_zone) with g_zone. unfold g_zone. cbn [alts seqs]. rewrite cl_alt, cl_seq, cl_fws, cl_zoneName, (cl_nt R_offset). change (body R_offset) with g_offset. unfold g_offset. cbn [seqs].
  rewrite !cl_seq, cl_opt, cl_sign, cl_digit. reflexivity.
Qed.

Lemma before_dateTime : same (before_eof (Nt R_dateTime)) date_texts.
Proof.
  rewrite before_nt. change (body R_dateTime) with g_dateTime. unfold g_dateTime. cbn [seqs]. rewrite !before_seq by reflexivity. rewrite before_tok, cat_nil, cl_gap, !cl_opt, !cl_seq.
  rewrite cl_dayOfweek, cl_day, cl_month, cl_year, cl_hour, (cl_two R_minute _ eq_refl eq_refl), (cl_two R_second _ eq_refl eq_refl), cl_zone, cl_comma, cl_colon. unfold date_texts. rewrite !cat_assoc. reflexivity.
Qed.

(** ** Acceptance *)

(** the lexer passes every character, or drops the ones it does not know *)
Definition lexes (e : env) (s : gostring) : Prop := bad_rune e = EmitBad -> Forall (fun r => (r <= 65535)%N) (decode s).

Lemma accepts_iff e s r P : same (before_eof (Nt r)) P -> (lang (Nt r) (tokens e s) <-> P (kept s) /\ lexes e s).
Proof.
  intros S. split.
  - intros H. split.
    + apply S. split; [apply kept_bmp|]. change (lang (Nt r) (map tok_of (filter bmp (decode s)) ++ [eof_tok])). rewrite <- (accepted_tokens e s r H). exact H.
    + intros E. pose proof (lang_no_invalid r _ H) as N. unfold tokens, lex in N. rewrite E in N. apply Forall_app in N as [N _].
      apply Forall_forall. intros c Hc. destruct (N.le_gt_cases c 65535) as [L|L]; [exact L|]. exfalso. rewrite Forall_forall in N. apply (N (mkTok T_Invalid c)); [|reflexivity].
      apply in_flat_map. exists c. split; [exact Hc|]. unfold lex1. rewrite lex_not_bmp; [now left|]. unfold bmp. now apply N.leb_gt.
  - intros [H L]. apply S in H as [B H]. replace (tokens e s) with (toks (kept s) ++ [eof_tok]); [exact H|]. symmetry. apply tokens_spell. unfold tokens, lex.
    apply Forall_app. split; [|constructor; [discriminate | constructor]]. apply Forall_forall. intros t Ht. apply in_flat_map in Ht as (c & Hc & Ht). unfold lex1 in Ht. destruct (bmp c) eqn:E.
    + destruct (lex_bmp c E) as [ty Hty]. rewrite Hty in Ht. destruct Ht as [<-|[]]. cbn. now apply (lex_types c ty).
    + rewrite (lex_not_bmp c E) in Ht. destruct (bad_rune e) eqn:R; [destruct Ht|]. exfalso. specialize (L R). rewrite Forall_forall in L. specialize (L c Hc). unfold bmp in E. apply N.leb_gt in E. lia.
Qed.

(** C56 *)
Theorem C56_accepted_address_lists : forall e s, s <> [] ->
  ((exists l, ParseAddressList e s = Ret l None) <-> address_list_texts (kept s) /\ lexes e s).
Proof. intros e s Hs. rewrite (C04_accepts_grammar e s Hs). exact (accepts_iff e s _ _ before_addressList). Qed.

(** C57 *)
Theorem C57_accepted_dates : forall e s, s <> [] ->
  ((exists t, ParseDateTime e s = Ret t None) <-> date_texts (kept s) /\ lexes e s).
Proof. intros e s Hs. rewrite (C05_accepts_grammar e s Hs). exact (accepts_iff e s _ _ before_dateTime). Qed.


(** Concrete texts. *)
Lemma env0_lexes s : lexes env0 s.
Proof. intros H. discriminate H. Qed.

Example C56_met : address_list_texts (kept (bs ",a (b) <@c:d@e>, f: g@h;")) /\ ~ address_list_texts (kept (bs "a@b <c>")) /\ ~ address_list_texts (kept (bs "a@b,;c@d")).
Proof.
  split; [|split].
  - refine (proj1 (proj1 (C56_accepted_address_lists env0 _ _) _)); [discriminate|]. eexists. vm_compute. reflexivity.
  - intros H. destruct (proj2 (C56_accepted_address_lists env0 (bs "a@b <c>") ltac:(discriminate)) (conj H (env0_lexes _))) as [l E]. vm_compute in E. discriminate E.
  - intros H. destruct (proj2 (C56_accepted_address_lists env0 (bs "a@b,;c@d") ltac:(discriminate)) (conj H (env0_lexes _))) as [l E]. vm_compute in E. discriminate E.
Qed.

Example C57_met : date_texts (kept (bs "1 Jan(x) 97 2:03 GMT")) /\ ~ date_texts (kept (bs "1 Jan(x)1997 2:03")) /\ ~ date_texts (kept (bs "1 Jan 97 2:3")).
Proof.
  split; [|split].
  - refine (proj1 (proj1 (C57_accepted_dates env0 _ _) _)); [discriminate|]. eexists. vm_compute. reflexivity.
  - intros H. destruct (proj2 (C57_accepted_dates env0 (bs "1 Jan(x)1997 2:03") ltac:(discriminate)) (conj H (env0_lexes _))) as [l E]. vm_compute in E. discriminate E.
  - intros H. destruct (proj2 (C57_accepted_dates env0 (bs "1 Jan 97 2:3") ltac:(discriminate)) (conj H (env0_lexes _))) as [l E]. vm_compute in E. discriminate E.
Qed.
Print Assumptions C56_accepted_address_lists.
