(** The Enter... methods of GoCode.v do what [enter_node] of Walker.v says. *)
From Coq Require Import String Ascii List NArith ZArith Bool Arith Lia.
From Verif Require Import Lexer Grammar Utf8 Strs Mime GoTime Parser Walker WalkerFacts GoSyntax GoCode GoRun GoFacts GoSim GoNames GoEnterDate GoEnterText.
Import ListNotations.
Local Open Scope string_scope.
Local Open Scope list_scope.

Section GoEnter.
Context (e : wenv) (wd : world).
Local Notation invoke := (invoke package e wd).
Local Notation execs := (execs package e wd).
Implicit Types (n : nat) (s : gst).

Ltac start L n := fuel 30 n; erewrite call_walker; [| exact L | vm_compute; reflexivity]; look; unfold wobj in *.
Lemma enter_sim n s lw o rv ev r ch nd er : load s lw = Some (wobj o rv ev) -> enter_node e r ch = Some (Some (nd, er)) ->
  entered s lw o rv (match er with Some x => errv x | None => ev end) nd (invoke (30 + n) (VPtr lw) ("Enter" ++ rname r)%string [VCtx r ch] s).
Proof.
  intros L H. destruct r; try discriminate H; cbn [enter_node] in H;
    match goal with |- context [GoRun.invoke _ _ _ _ _ ?m _ _] => let x := eval vm_compute in m in change m with x end.
  (* dates and encoded words *)
  all: lazymatch goal with
    | |- context [VCtx R_day] => injection H as <- <-; now apply enter_Day
    | |- context [VCtx R_hour] => injection H as <- <-; now apply enter_Hour
    | |- context [VCtx R_minute] => injection H as <- <-; now apply enter_Minute
    | |- context [VCtx R_second] => injection H as <- <-; now apply enter_Second
    | |- context [VCtx R_year] => injection H as <- <-; now apply enter_Year
    | |- context [VCtx R_month] => injection H as <- <-; now apply enter_Month
    | |- context [VCtx R_obsZone] => injection H as <- <-; now apply enter_ObsZone
    | |- context [VCtx R_zone] => injection H as <- <-; now apply enter_Zone
    | |- context [VCtx R_dateTime] => injection H as <- <-; now apply enter_DateTime
    | |- context [VCtx R_encodedWord] => injection H as <- <-; now apply enter_EncodedWord
    | |- context [VCtx R_offset] => destruct (offset_value (get_text ch)) as [[[x y] z]|] eqn:E; [| discriminate H]; injection H as <- <-; now apply enter_Offset
    | _ => injection H as <- <- end.
  (* a new struct, empty or with the text *)
  all: start L n; go; try (text; go); mk; go; erewrite call_enter by ldsolve; go;
    match goal with |- entered ?s ?lw ?o ?rv ?ev ?nd _ => apply (entered_plain s lw o rv ev nd); exact L end.
Qed.
End GoEnter.
