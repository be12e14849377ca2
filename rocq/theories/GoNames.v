(** Which methods of the contexts and of the listener are called when a rule is entered and left. *)
From Coq Require Import String Ascii List NArith ZArith Bool Arith Lia.
From Verif Require Import Lexer Grammar Utf8 Strs Mime GoTime Parser Walker WalkerFacts GoSyntax GoCode GoRun GoFacts GoSim.
Import ListNotations.
Local Open Scope string_scope.
Local Open Scope list_scope.

Ltac vmr := match goal with |- ?a = ?b => vm_cast_no_check (eq_refl b) end.
(** ** The methods of the contexts and of the listener *)
Definition rname (r : rule) : string := substring 7 (String.length (context_type r) - 14) (context_type r).
Definition lower (a : ascii) : ascii := if (65 <=? nat_of_ascii a)%nat && (nat_of_ascii a <=? 90)%nat then ascii_of_nat (nat_of_ascii a + 32) else a.
Definition struct_of (r : rule) : string := match rname r with String a s => String (lower a) s | EmptyString => EmptyString end.

Lemma listens : implements package "walker" parser_RFC5322ParserListener_iface = true.
Proof. vmr. Qed.
Definition rule_fn (m : string) (r : rule) : fn :=
  mkFn "s" [("listener", TName "antlr.ParseTreeListener")] [SIfIs "listenerT" (EVar "listener") parser_RFC5322ParserListener_iface [SExpr (EMethod (EVar "listenerT") (m ++ rname r)%string [EVar "s"])]].
Lemma enter_rule r : find_method package (context_type r) "EnterRule" = Some (rule_fn "Enter" r).
Proof. destruct r; vmr. Qed.
Lemma exit_rule r : find_method package (context_type r) "ExitRule" = Some (rule_fn "Exit" r).
Proof. destruct r; vmr. Qed.
Definition no_fn (r : rule) : fn := mkFn "s" [("ctx", TPtr (TName (context_type r)))] [].
Lemma enter_other r : handled r = false -> find_method package "walker" ("Enter" ++ rname r)%string = Some (no_fn r).
Proof. destruct r; intros H; try discriminate H; vmr. Qed.
Lemma exit_other r : handled r = false -> find_method package "walker" ("Exit" ++ rname r)%string = Some (no_fn r).
Proof. destruct r; intros H; try discriminate H; vmr. Qed.
Definition exit_fn (r : rule) : fn :=
  mkFn "w" [("ctx", TPtr (TName (context_type r)))]
    [SDefine ["res"] (EAssert (EMethod (EVar "w") "exit" []) (TPtr (TName (struct_of r))));
     SIfIs "parent" (EMethod (EVar "w") "parent" []) [(("with" ++ rname r)%string, [TPtr (TName (struct_of r))])]
       [SExpr (EMethod (EVar "parent") ("with" ++ rname r)%string [EVar "res"])]].
Lemma exit_inner r : handled r = true -> r <> R_addressList -> r <> R_dateTime ->
  find_method package "walker" ("Exit" ++ rname r)%string = Some (exit_fn r).
Proof. destruct r; intros H A D; try discriminate H; try (now destruct A); try (now destruct D); vmr. Qed.
Lemma node_names r n : node_of_rule r n = true -> tname n = struct_of r /\ with_name n = ("with" ++ rname r)%string.
Proof. destruct r; destruct n; intros H; try discriminate H; split; vmr. Qed.

Section GoWalk.
Context (e : wenv) (wd : world).
Local Notation invoke := (invoke package e wd).
Local Notation execs := (execs package e wd).
Implicit Types (n : nat) (s : gst).

Lemma call_rule n s lw o rv ev r ch m : load s lw = Some (wobj o rv ev) -> m = "Enter" \/ m = "Exit" ->
  invoke (S (S (S (S (S (S (S (S n)))))))) (VCtx r ch) (m ++ "Rule")%string [VPtr lw] s =
  bind (invoke (S (S n)) (VPtr lw) (m ++ rname r)%string [VCtx r ch] s) (fun _ s => Ok (VTuple []) s).
Proof.
  intros L M. erewrite (invoke_own package e wd _ (VCtx r ch) _ _ s (context_type r) (rule_fn m r)); [| discriminate | reflexivity | destruct M as [M|M]; rewrite M; [apply enter_rule | apply exit_rule]].
  unfold rule_fn. look. go. cbn [wobj o_type]. rewrite listens. go.
  destruct (invoke _ _ _ _ _) as [a s'| |]; [| reflexivity .. ]. go. reflexivity.
Qed.

Lemma call_other n s lw o rv ev r ch m : load s lw = Some (wobj o rv ev) -> find_method package "walker" m = Some (no_fn r) ->
  invoke (S (S n)) (VPtr lw) m [VCtx r ch] s = Ok (VTuple []) s.
Proof. intros L F. erewrite call_walker; [| exact L | exact F]. reflexivity. Qed.

Definition errv (x : error) : val := VErr match x with
  | ESyntax => ErrText [] | EAtoi => ErrAtoi | EMonth => ErrText (bs "no such month") | EZone => ErrText (bs "bad timezone") | EDuration => ErrDuration end.
(** What an Enter... method does. *)
Definition entered (s : gst) (lw : nat) (o : option (list val)) (rv ev : val) (nd : node) (r : out val) : Prop :=
  exists s' ln, r = Ok (VTuple []) s' /\ load s' lw = Some (wobj (Some (members o ++ [VPtr ln])) rv ev) /\
    load s' ln = Some (image nd []) /\ length (heap s) <= ln /\
    (forall x y, x <> lw -> load s x = Some y -> load s' x = Some y) /\ printed s' = printed s.
Lemma entered_tail s lw o rv ev ev0 nd : load s lw = Some (wobj o rv ev0) ->
  entered s lw o rv ev nd (Ok (VTuple []) (store (alloc (store s lw (wobj o rv ev)) (image nd [])) lw (wobj (Some (members o ++ [VPtr (length (heap (store s lw (wobj o rv ev))))])) rv ev))).
Proof.
  intros L. pose proof (load_lt _ _ _ L) as LT. rewrite (heap_store s lw). eexists; exists (length (heap s)). split; [reflexivity |]. split; [ldsolve |].
  split; [rewrite load_store_other by lia; rewrite <- (heap_store s lw (wobj o rv ev)) at 1; apply load_alloc_new |].
  split; [lia |]. split; [intros x y X Y; ldsolve | reflexivity].
Qed.
Lemma entered_plain s lw o rv ev nd : load s lw = Some (wobj o rv ev) ->
  entered s lw o rv ev nd (Ok (VTuple []) (store (alloc s (image nd [])) lw (wobj (Some (members o ++ [VPtr (length (heap s))])) rv ev))).
Proof.
  intros L. pose proof (load_lt _ _ _ L) as LT. eexists; exists (length (heap s)). split; [reflexivity |]. split; [ldsolve |].
  split; [rewrite load_store_other by lia; apply load_alloc_new |].
  split; [lia |]. split; [intros x y X Y; ldsolve | reflexivity].
Qed.

Lemma pick_nil n lo v d s : pick package e wd n lo v d [] s = bind (execs n lo d s) (fun r s => Ok (leave lo (fst r), snd r) s).
Proof. reflexivity. Qed.
Lemma pick_cons n lo v d l b cs s : pick package e wd n lo v d ((l, b) :: cs) s =
  bind (GoRun.eval package e wd n lo l s) (fun u s => match binary OEq v u with
    | Some (VBool true) => bind (execs n lo b s) (fun r s => Ok (leave lo (fst r), snd r) s)
    | Some (VBool false) => pick package e wd n lo v d cs s
    | _ => Stuck end).
Proof. reflexivity. Qed.

(** "for _, digit := range ctx.AllDigit() { text += digit.GetText() }" *)
Definition toks (ch : list tree) : list tok := flat_map (fun c => match c with Leaf x => if N.eqb (tt x) T_Digit then [x] else [] | Node _ _ => [] end) ch.
Lemma toks_vals ch : flat_map (fun c => match c with Leaf x => if Z.eqb (Z.of_N (tt x)) (Z.of_N T_Digit) then [VTok x] else [] | Node _ _ => [] end) ch = map VTok (toks ch).
Proof.
  induction ch as [|c ch IH]; [reflexivity |]. cbn [flat_map toks]. fold (toks ch). rewrite map_app, IH. f_equal. destruct c as [x|]; [| reflexivity].
  destruct (N.eqb_spec (tt x) T_Digit) as [E|E]; destruct (Z.eqb_spec (Z.of_N (tt x)) (Z.of_N T_Digit)) as [E'|E']; try reflexivity; exfalso;
    [apply E'; now rewrite E | apply E; now apply N2Z.inj].
Qed.
Lemma toks_text ch : flat_map tok_text (toks ch) = digits_text ch.
Proof.
  induction ch as [|c ch IH]; [reflexivity |]. cbn [flat_map toks digits_text]. fold (toks ch). fold (digits_text ch). rewrite flat_map_app, IH. f_equal.
  destruct c as [x|]; [| reflexivity]. destruct (N.eqb (tt x) T_Digit); [| reflexivity]. cbn. apply app_nil_r.
Qed.
Lemma digit_rounds n lo s : forall ts acc,
  rounds package e wd (S (S (S (S n)))) "digit" [SAddAssign (EVar "text") (EMethod (EVar "digit") "GetText" [])] (map VTok ts) (("text", VStr acc) :: lo) s
  = Ok (("text", VStr (acc ++ flat_map tok_text ts)) :: lo, None) s.
Proof.
  induction ts as [|t ts IH]; intros acc; [cbn; now rewrite app_nil_r |].
  cbn [map rounds flat_map]. rewrite app_assoc. rewrite <- IH. look. go.
  erewrite invoke_lib; [| discriminate | reflexivity | vmr | reflexivity]. go.
  match goal with |- context [skipn ?k _] => replace k with 1 by (destruct (length lo); lia) end. reflexivity.
Qed.
End GoWalk.

Lemma i64_small z : (-1000000 <= z <= 1000000)%Z -> i64 z = z.
Proof. intros H. unfold i64, two63, two64. rewrite Z.mod_small; lia. Qed.
Lemma atoi_two s v : atoi s = Some v -> length s = 2 -> (0 <= v <= 99)%Z.
Proof.
  destruct s as [|a [|b [|c s]]]; intros H L; try discriminate L. unfold atoi in H. cbn [length Nat.leb atoi_acc] in H.
  destruct (is_digit a) eqn:A; [| discriminate H]. destruct (is_digit b) eqn:B; [| discriminate H].
  unfold is_digit, in_range in A, B. apply andb_true_iff in A, B. destruct A as [A1 A2], B as [B1 B2].
  apply N.leb_le in A1, A2, B1, B2. injection H as <-. lia.
Qed.

Ltac look2 := look; cbn [nodes members].
Ltac text := match goal with |- context [GoRun.invoke package _ _ _ (VCtx _ _) "GetText" [] _] => erewrite invoke_lib; [| discriminate | reflexivity | vmr | reflexivity] end.
Ltac fuel F k := change (F + k) with (S (S (S (S (S (S (S (S (S (S (S (S (S (S (S (S (S (S (S (S (S (S (S (S (S (S (S (S (S (S k)))))))))))))))))))))))))))))).
