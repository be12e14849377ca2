(** The Enter... methods of the simple parts of a date. *)
From Coq Require Import String Ascii List NArith ZArith Bool Arith Lia.
From Verif Require Import Lexer Grammar Utf8 Strs Mime GoTime Parser Walker WalkerFacts GoSyntax GoCode GoRun GoFacts GoSim GoNames.
Import ListNotations.
Local Open Scope string_scope.
Local Open Scope list_scope.

Section GoEnter.
Context (e : wenv) (wd : world).
Local Notation invoke := (invoke package e wd).
Local Notation execs := (execs package e wd).
Implicit Types (n : nat) (s : gst).

Ltac start L n := fuel 30 n; erewrite call_walker; [| exact L | vm_compute; reflexivity]; look; unfold wobj in *.
Lemma enter_Day n s lw o rv ev ch : load s lw = Some (wobj o rv ev) -> let v := int_field (digits_text ch) in
  entered s lw o rv (match snd v with Some x => errv x | None => ev end) (NDay (fst v)) (invoke (30 + n) (VPtr lw) "EnterDay" [VCtx R_day ch] s).
Proof.
  intros L v. start L n. go. erewrite (invoke_own package e wd _ (VCtx R_day ch)); [| discriminate | reflexivity | vm_compute; reflexivity]. look. go.
  erewrite invoke_lib; [| discriminate | reflexivity | vmr | cbn [lib_method]; rewrite (String.eqb_refl "GetTokens"); reflexivity]. go. cbn [members].
  rewrite toks_vals. change (zero (TName "string")) with (VStr []). rewrite digit_rounds, toks_text. go. unfold lib. look. unfold v, int_field.
  destruct (atoi (digits_text ch)) as [z|]; go.
  all: look; mk; go; erewrite call_enter by ldsolve; go.
  - apply (entered_plain s lw o rv ev (NDay z)). exact L.
  - apply (entered_tail s lw o rv (errv EAtoi) ev (NDay 0)). exact L.
Qed.
Lemma enter_Hour n s lw o rv ev ch : load s lw = Some (wobj o rv ev) -> let v := int_field (digits_text ch) in
  entered s lw o rv (match snd v with Some x => errv x | None => ev end) (NHour (fst v)) (invoke (30 + n) (VPtr lw) "EnterHour" [VCtx R_hour ch] s).
Proof.
  intros L v. start L n. go. erewrite (invoke_own package e wd _ (VCtx R_hour ch)); [| discriminate | reflexivity | vm_compute; reflexivity]. look. go.
  erewrite invoke_lib; [| discriminate | reflexivity | vmr | cbn [lib_method]; rewrite (String.eqb_refl "GetTokens"); reflexivity]. go. cbn [members].
  rewrite toks_vals. change (zero (TName "string")) with (VStr []). rewrite digit_rounds, toks_text. go. unfold lib. look. unfold v, int_field.
  destruct (atoi (digits_text ch)) as [z|]; go.
  all: look; mk; go; erewrite call_enter by ldsolve; go.
  - apply (entered_plain s lw o rv ev (NHour z)). exact L.
  - apply (entered_tail s lw o rv (errv EAtoi) ev (NHour 0)). exact L.
Qed.
Lemma enter_Minute n s lw o rv ev ch : load s lw = Some (wobj o rv ev) -> let v := int_field (digits_text ch) in
  entered s lw o rv (match snd v with Some x => errv x | None => ev end) (NMinute (fst v)) (invoke (30 + n) (VPtr lw) "EnterMinute" [VCtx R_minute ch] s).
Proof.
  intros L v. start L n. go. erewrite (invoke_own package e wd _ (VCtx R_minute ch)); [| discriminate | reflexivity | vm_compute; reflexivity]. look. go.
  erewrite invoke_lib; [| discriminate | reflexivity | vmr | cbn [lib_method]; rewrite (String.eqb_refl "GetTokens"); reflexivity]. go. cbn [members].
  rewrite toks_vals. change (zero (TName "string")) with (VStr []). rewrite digit_rounds, toks_text. go. unfold lib. look. unfold v, int_field.
  destruct (atoi (digits_text ch)) as [z|]; go.
  all: look; mk; go; erewrite call_enter by ldsolve; go.
  - apply (entered_plain s lw o rv ev (NMinute z)). exact L.
  - apply (entered_tail s lw o rv (errv EAtoi) ev (NMinute 0)). exact L.
Qed.
Lemma enter_Second n s lw o rv ev ch : load s lw = Some (wobj o rv ev) -> let v := int_field (digits_text ch) in
  entered s lw o rv (match snd v with Some x => errv x | None => ev end) (NSecond (fst v)) (invoke (30 + n) (VPtr lw) "EnterSecond" [VCtx R_second ch] s).
Proof.
  intros L v. start L n. go. erewrite (invoke_own package e wd _ (VCtx R_second ch)); [| discriminate | reflexivity | vm_compute; reflexivity]. look. go.
  erewrite invoke_lib; [| discriminate | reflexivity | vmr | cbn [lib_method]; rewrite (String.eqb_refl "GetTokens"); reflexivity]. go. cbn [members].
  rewrite toks_vals. change (zero (TName "string")) with (VStr []). rewrite digit_rounds, toks_text. go. unfold lib. look. unfold v, int_field.
  destruct (atoi (digits_text ch)) as [z|]; go.
  all: look; mk; go; erewrite call_enter by ldsolve; go.
  - apply (entered_plain s lw o rv ev (NSecond z)). exact L.
  - apply (entered_tail s lw o rv (errv EAtoi) ev (NSecond 0)). exact L.
Qed.
Lemma enter_Month n s lw o rv ev ch : load s lw = Some (wobj o rv ev) -> let v := month_value (get_text ch) in
  entered s lw o rv (match snd v with Some x => errv x | None => ev end) (NMonth (fst v)) (invoke (30 + n) (VPtr lw) "EnterMonth" [VCtx R_month ch] s).
Proof.
  intros L v. start L n. go. text. go. unfold lib. look. go. unfold v, month_value. generalize (to_lower (get_text ch)) as t. clear v. intros t.
  repeat (rewrite pick_cons; go; match goal with |- context [eqb_str t ?x] => destruct (eqb_str t x) end).
  all: go.
  all: try rewrite pick_nil; go.
  all: unfold global, lib; look; go.
  all: mk; go; erewrite call_enter by ldsolve; go.
  all: first [apply (entered_plain s lw o rv ev (NMonth _)); exact L | apply (entered_tail s lw o rv (errv EMonth) ev (NMonth 0)); exact L].
Qed.
Lemma mul3 a b c : (-100 <= a <= 100)%Z -> (-100 <= b <= 100)%Z -> (-100 <= c <= 100)%Z -> i64 (i64 (a * b) * c) = (a * b * c)%Z.
Proof. intros A B C. assert (-10000 <= a * b <= 10000)%Z by nia. rewrite (i64_small (a * b)) by lia. apply i64_small. nia. Qed.
Lemma enter_ObsZone n s lw o rv ev ch : load s lw = Some (wobj o rv ev) -> let v := zone_value (get_text ch) in
  entered s lw o rv (match snd v with Some x => errv x | None => ev end) (NObsZone (fst v)) (invoke (30 + n) (VPtr lw) "EnterObsZone" [VCtx R_obsZone ch] s).
Proof.
  intros L v. start L n. go. unfold global. look. go. text. go. unfold lib. look. go. unfold v, zone_value. generalize (to_lower (get_text ch)) as t. clear v. intros t.
  repeat (rewrite pick_cons; go; match goal with |- context [eqb_str t ?x] => destruct (eqb_str t x) end).
  all: go.
  all: try rewrite pick_nil; go.
  all: try (text; go).
  all: unfold global, lib; look; go.
  all: mk; go; erewrite call_enter by ldsolve; go.
  all: rewrite ?(i64_small (-5)), ?(i64_small (-4)), ?(i64_small (-6)), ?(i64_small (-7)), ?(i64_small (-8)) by lia; rewrite ?mul3 by lia.
  all: first [apply (entered_plain s lw o rv ev (NObsZone _)); exact L | apply (entered_tail s lw o rv (errv EZone) ev (NObsZone UTC)); exact L].
Qed.
End GoEnter.
