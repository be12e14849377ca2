(** The Enter... methods of years, offsets, encoded words and zones. *)
From Coq Require Import String Ascii List NArith ZArith Bool Arith Lia.
From Verif Require Import Lexer Grammar Utf8 Strs Mime GoTime Parser Walker WalkerFacts GoSyntax GoCode GoRun GoFacts GoSim GoNames.
Import ListNotations.
Local Open Scope string_scope.
Local Open Scope list_scope.

Section GoEnter.
Context (e : wenv) (wd : world).
Local Notation invoke := (invoke package e wd).
Local Notation execs := (execs package e wd).
Implicit Types (n : nat) (s : gst).

Ltac start L n := fuel 30 n; erewrite call_walker; [| exact L | vm_compute; reflexivity]; look; unfold wobj in *.
Lemma enter_Zone n s lw o rv ev ch : load s lw = Some (wobj o rv ev) ->
  entered s lw o rv ev (NZone UTC) (invoke (30 + n) (VPtr lw) "EnterZone" [VCtx R_zone ch] s).
Proof.
  intros L. start L n. go. unfold global. look. go. mk; go; erewrite call_enter by ldsolve; go. apply (entered_plain s lw o rv ev (NZone _)); exact L.
Qed.
Lemma enter_DateTime n s lw o rv ev ch : load s lw = Some (wobj o rv ev) ->
  entered s lw o rv ev (NDateTime 0 0 0 0 0 0 UTC) (invoke (30 + n) (VPtr lw) "EnterDateTime" [VCtx R_dateTime ch] s).
Proof.
  intros L. start L n. go. unfold global. look. go. mk; go; erewrite call_enter by ldsolve; go. apply (entered_plain s lw o rv ev (NDateTime 0 0 0 0 0 0 UTC)); exact L.
Qed.

(** A new object that nothing holds does not matter. *)
Lemma entered_after s x lw o rv ev nd r : load s lw = Some (wobj o rv ev) -> entered (alloc s x) lw o rv ev nd r -> entered s lw o rv ev nd r.
Proof.
  intros L (s' & ln & A & B & C & D & E & F). exists s', ln. split; [exact A |]. split; [exact B |]. split; [exact C |]. split; [rewrite heap_alloc in D; lia |].
  split; [| exact F]. intros y z Y Z. apply E; [exact Y |]. now apply load_alloc_old.
Qed.
Lemma enter_EncodedWord n s lw o rv ev ch : load s lw = Some (wobj o rv ev) ->
  entered s lw o rv ev (NEncodedWord (encoded_word_value (reader e) (get_text ch))) (invoke (30 + n) (VPtr lw) "EnterEncodedWord" [VCtx R_encodedWord ch] s).
Proof.
  intros L. start L n. go. unfold global. look. go. mk. go. text. go.
  erewrite invoke_lib; [| discriminate | cbn [type_name]; rewrite load_alloc_new; reflexivity | vm_compute; reflexivity | rewrite load_alloc_new; reflexivity].
  go. unfold encoded_word_value. destruct (word_decode (reader e) (get_text ch)) as [w|]; go.
  2: text; go.
  all: look; mk; go; erewrite call_enter by (apply load_alloc_old; apply load_alloc_old; exact L); go.
  all: (eapply entered_after; [exact L |]).
  - apply (entered_plain (alloc s _) lw o rv ev (NEncodedWord w)). apply load_alloc_old. exact L.
  - apply (entered_plain (alloc s _) lw o rv ev (NEncodedWord (get_text ch))). apply load_alloc_old. exact L.
Qed.
Lemma enter_Year n s lw o rv ev ch : load s lw = Some (wobj o rv ev) -> let v := year_value (now_year e) (digits_text ch) in
  entered s lw o rv (match snd v with Some x => errv x | None => ev end) (NYear (fst v)) (invoke (30 + n) (VPtr lw) "EnterYear" [VCtx R_year ch] s).
Proof.
  intros L v. start L n. go. erewrite (invoke_own package e wd _ (VCtx R_year ch)); [| discriminate | reflexivity | vm_compute; reflexivity]. look. go.
  erewrite invoke_lib; [| discriminate | reflexivity | vmr | cbn [lib_method]; rewrite (String.eqb_refl "GetTokens"); reflexivity]. go. cbn [members].
  rewrite toks_vals. change (zero (TName "string")) with (VStr []). rewrite digit_rounds, toks_text. go. unfold lib. look. unfold v, year_value, int_field. change ([] ++ digits_text ch) with (digits_text ch).
  assert (N2 : (Z.of_nat (length (digits_text ch)) =? 2)%Z = Nat.eqb (length (digits_text ch)) 2).
  { destruct (Nat.eqb_spec (length (digits_text ch)) 2) as [E|E]; [rewrite E; reflexivity |]. apply Z.eqb_neq. lia. }
  destruct (atoi (digits_text ch)) as [z|] eqn:A; go; rewrite N2; destruct (Nat.eqb_spec (length (digits_text ch)) 2) as [E|E]; go.
  all: unfold lib; look; go.
  1, 3: erewrite invoke_lib; [| discriminate | reflexivity | vmr | reflexivity]; go; change (100 =? 0)%Z with false; look; go.
  - pose proof (atoi_two _ _ A E) as B. destruct (Z.rem (now_year e) 100 <? z)%Z; go; mk; go; erewrite call_enter by ldsolve; go; rewrite i64_small by lia.
    + apply (entered_plain s lw o rv ev (NYear (z + 1900))). exact L.
    + apply (entered_plain s lw o rv ev (NYear (z + 2000))). exact L.
  - destruct (Z.rem (now_year e) 100 <? 0)%Z; go; mk; go; erewrite call_enter by ldsolve; go; rewrite i64_small by lia.
    + apply (entered_tail s lw o rv (errv EAtoi) ev (NYear (0 + 1900))). exact L.
    + apply (entered_tail s lw o rv (errv EAtoi) ev (NYear (0 + 2000))). exact L.
  - mk; go; erewrite call_enter by ldsolve; go. apply (entered_plain s lw o rv ev (NYear z)). exact L.
  - mk; go; erewrite call_enter by ldsolve; go. apply (entered_tail s lw o rv (errv EAtoi) ev (NYear 0)). exact L.
Qed.

Lemma cut i j t : slice_str i j t = if ((0 <=? Z.of_nat i) && (Z.of_nat i <=? Z.of_nat j) && (Z.of_nat j <=? Z.of_nat (length t)))%Z then Some (firstn (j - i) (skipn i t)) else None.
Proof.
  unfold slice_str. destruct (Z.leb_spec 0 (Z.of_nat i)) as [_|K]; [| lia]. cbn [andb].
  destruct (Nat.leb_spec i j); destruct (Z.leb_spec (Z.of_nat i) (Z.of_nat j)); try lia; [| reflexivity]. cbn [andb].
  destruct (Nat.leb_spec j (length t)); destruct (Z.leb_spec (Z.of_nat j) (Z.of_nat (length t))); try lia; reflexivity.
Qed.
Lemma lib_dur a b c : lib "fmt.Sprintf" [VStr (bs "%v%vh%vm"); VStr a; VStr b; VStr c] = Some (LVal (VStr (a ++ b ++ bs "h" ++ c ++ bs "m"))).
Proof. unfold lib. cbn. reflexivity. Qed.
Lemma enter_Offset n s lw o rv ev ch rep z er : load s lw = Some (wobj o rv ev) -> offset_value (get_text ch) = Some (rep, z, er) ->
  entered s lw o rv (match er with Some x => errv x | None => ev end) (NOffset rep z) (invoke (30 + n) (VPtr lw) "EnterOffset" [VCtx R_offset ch] s).
Proof.
  intros L H. unfold offset_value in H.
  assert (T : exists t, t = (if has_prefix (bs "+") (get_text ch) || has_prefix (bs "-") (get_text ch) then get_text ch else bs "+" ++ get_text ch)) by now eexists.
  destruct T as [t T]. rewrite <- T in H. rewrite !cut in H.
  change (Z.of_nat 0) with 0%Z in H. change (Z.of_nat 1) with 1%Z in H. change (Z.of_nat 3) with 3%Z in H. change (Z.of_nat 5) with 5%Z in H.
  assert (K : entered s lw o rv (match er with Some x => errv x | None => ev end) (NOffset rep z)
    (bind (execs (S (S (S (S (S (S (S (S (S (S (S (S (S (S (S (S (S (S (S (S (S (S (S (S (S (S (S n))))))))))))))))))))))))))) [("text", VStr t); ("w", VPtr lw); ("ctx", VCtx R_offset ch)]
            [SDefine ["sgn"] (ESlice (EVar "text") (EInt 0) (EInt 1));
             SDefine ["hrs"] (ESlice (EVar "text") (EInt 1) (EInt 3));
             SDefine ["min"] (ESlice (EVar "text") (EInt 3) (EInt 5));
             SDefine ["dur"; "err"] (ECall "time.ParseDuration" [ECall "fmt.Sprintf" [EStr "%v%vh%vm"; EVar "sgn"; EVar "hrs"; EVar "min"]]);
             SIf (EBin ONe (EVar "err") ENil) [SAssign (EField (EVar "w") "err") (EVar "err")] [];
             SExpr (EMethod (EVar "w") "enter" [ENew "offset" [("rep", EVar "text"); ("value", EToInt (EMethod (EVar "dur") "Seconds" []))]])] s)
       (fun r s => Ok (match snd r with Some v => v | None => VTuple [] end) s))).
  { clear T. unfold wobj in *. go.
    destruct ((0 <=? 0) && (0 <=? 1) && (1 <=? Z.of_nat (length t)))%Z; [| discriminate H]. go.
    destruct ((0 <=? 1) && (1 <=? 3) && (3 <=? Z.of_nat (length t)))%Z; [| discriminate H]. go.
    destruct ((0 <=? 3) && (3 <=? 5) && (5 <=? Z.of_nat (length t)))%Z; [| discriminate H]. go.
    change (Z.to_nat 1 - Z.to_nat 0) with (1 - 0). change (Z.to_nat 3 - Z.to_nat 1) with (3 - 1). change (Z.to_nat 5 - Z.to_nat 3) with (5 - 3).
    change (Z.to_nat 0) with 0. change (Z.to_nat 1) with 1. change (Z.to_nat 3) with 3.
    revert H. generalize (firstn (1 - 0) (skipn 0 t)) as sg. generalize (firstn (3 - 1) (skipn 1 t)) as hr. generalize (firstn (5 - 3) (skipn 3 t)) as mi. intros mi hr sg H.
    rewrite lib_dur. go. unfold lib. look. destruct (parse_duration (sg ++ hr ++ bs "h" ++ mi ++ bs "m")) as [d|]; injection H as <- <- <-; go.
    all: erewrite invoke_lib; [| discriminate | reflexivity | vmr | reflexivity].
    all: go; mk; go; erewrite call_enter by ldsolve; go.
    - apply (entered_plain s lw o rv ev (NOffset t (duration_seconds d))). exact L.
    - apply (entered_tail s lw o rv (errv EDuration) ev (NOffset t 0)). exact L. }
  start L n. match goal with |- context [SDefine ["sgn"] ?x :: ?r] => revert K; generalize (SDefine ["sgn"] x :: r) as tl; intros tl K end.
  go. text. go. unfold lib. look. go.
  destruct (has_prefix (bs "+") (get_text ch)); cbn [orb] in T; [subst t; look; go; exact K |]. look. go. unfold lib. look. go.
  destruct (has_prefix (bs "-") (get_text ch)); subst t; look; go; exact K.
Qed.
End GoEnter.
