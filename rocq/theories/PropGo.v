(** The exported functions, executed statement by statement as the Go files say (GoCode.v, GoRun.v). *)
From Coq Require Import String Ascii List NArith ZArith Bool Arith Lia.
From Verif Require Import Lexer Grammar Utf8 Strs Mime GoTime Parser Walker Api Spec ParserFacts LexFacts WalkerFacts Total GenSyntax GenRun GenLex GenRecover PropGen PropRecover.
From Verif Require Import GoSyntax GoCode GoRun GoFacts GoSim GoNames GoEnter GoWalk.
Import ListNotations.
Local Open Scope string_scope.
Local Open Scope list_scope.

(** ** What the statements say *)
(** The run of lexer and parser that the world gives for a start rule and an input is one that the parser with its
    error handler can make on what the network of the lexer reads (C49, C65): its listeners get an error if and only if the run has failed, and a run without
    errors returns its tree.  A rule function returns a context in any case.  The lexer reports nothing but
    characters that begin no token. *)
(* /repo: specification *)
Definition agrees (o : routcome) (x : run) : Prop :=
  match o with
  | RDone f _ m => (parser_errors x <> [] <-> failed m = true) /\ (failed m = false -> f = [made x]) /\ exists r ch, made x = Node r ch
  | _ => False
  end.
(* /repo: specification *)
Definition world_of (e : env) (wd : world) : Prop := forall r input w, start_rule r -> scans (bad_rune e) (decode input) w ->
  (exists n0, forall n, n0 <= n -> exists o, may_end (rstart n r w) o /\ agrees o (wd r input)) /\
  (lexer_errors (wd r input) <> [] -> exists c rest, In c (decode input) /\ forall t u rest', ~ lexeme (c :: rest) t u rest').

(** A mail.Address, and a []*mail.Address whose elements point to the objects [ls], which hold the addresses [v]. *)
(* /repo: specification *)
Definition address_object (a : addr) : obj := mkObj "mail.Address" [("Name", VStr (a_name a)); ("Address", VStr (a_address a))].
(* /repo: specification *)
Definition holds_list (s : gst) (x : val) (ls : list nat) (v : slice) : Prop :=
  match v with
  | None => (x = VNil \/ x = VSlice (TPtr (TName "mail.Address")) None) /\ ls = []
  | Some l => x = VSlice (TPtr (TName "mail.Address")) (Some (map VPtr ls)) /\ Forall2 (fun p a => load s p = Some (address_object a)) ls l
  end.
(* /repo: specification *)
Definition syntax_error (messages : list gostring) : val := VErr (ErrText (bs "error parsing rfc5322 input: " ++ last messages [])).

(** The error: the last of the parser's messages. *)
(* /repo: specification *)
Definition holds_error (messages : list gostring) (x : val) (er : option error) : Prop :=
  match er with None => x = VNil | Some _ => messages <> [] /\ x = syntax_error messages end.

(** ** The pieces *)
Lemma invoke_libm P e wd n recv m args s t x : recv <> VNil -> type_name s recv = Some t -> find_method P t m = None ->
  lib_method e recv (match recv with VPtr l => match load s l with Some o => o_fields o | None => [] end | _ => [] end) t m args = Some x ->
  invoke P e wd (S n) recv m args s =
  match x with
  | MVal v => Ok v s
  | MSet fs' => match recv with VPtr l => Ok (VTuple []) (store s l (mkObj t fs')) | _ => Stuck end
  | MRun r =>
      let fs := match recv with VPtr l => match load s l with Some o => o_fields o | None => [] end | _ => [] end in
      match assoc "input" fs, assoc "listeners" fs with
      | Some (VStr input), Some (VSlice _ ls) =>
          let w := wd r input in
          let s := mkGst (heap s) (printed s ++ lexer_errors w) in
          bind (notify_all (invoke P e wd n) (members ls) (parser_errors w) s) (fun _ s =>
            match made w with Node r ch => Ok (VCtx r ch) s | Leaf _ => Stuck end)
      | _, _ => Stuck
      end
  | MWalk l r ch => bind (walk_tree (invoke P e wd n) l (Node r ch) s) (fun _ s => Ok (VTuple []) s)
  end.
Proof.
  intros H T F L. change (GoRun.invoke P e wd (S n)) with (fun recv m args s => GoRun.invoke P e wd (S n) recv m args s).
  destruct recv; try contradiction; cbn -[lib_method]; cbn in T; rewrite ?T; try discriminate T; try (injection T as <-); rewrite F; rewrite L; destruct x; reflexivity.
Qed.

Section Calls.
Context (e : wenv) (wd : world).
Local Notation invoke := (invoke package e wd).
Implicit Types (n : nat) (s : gst).

Lemma lib_error m : lib "fmt.Errorf" [VStr (bs "error parsing rfc5322 input: %v"); VStr m] = Some (LVal (VErr (ErrText (bs "error parsing rfc5322 input: " ++ m)))).
Proof. unfold lib. cbn. rewrite app_nil_r. reflexivity. Qed.
Lemma call_syntax_error n s lw o rv ev m : load s lw = Some (wobj o rv ev) ->
  invoke (10 + n) (VPtr lw) "SyntaxError" [VNil; VNil; VInt 0; VInt 0; VStr m; VNil] s = Ok (VTuple []) (store s lw (wobj o rv (syntax_error [m]))).
Proof.
  intros L. change (10 + n) with (S (S (S (S (S (S (S (S (S (S n)))))))))). erewrite call_walker; [| exact L | vm_compute; reflexivity]. look. unfold wobj in *. go.
  rewrite lib_error. go. reflexivity.
Qed.
Lemma call_notify n lw o rv : forall ms s ev, load s lw = Some (wobj o rv ev) ->
  exists s', notify_all (invoke (10 + n)) [VPtr lw] ms s = Ok Datatypes.tt s' /\
    load s' lw = Some (wobj o rv (match ms with [] => ev | _ => syntax_error ms end)) /\
    (forall x y, x <> lw -> load s x = Some y -> load s' x = Some y) /\ length (heap s') = length (heap s) /\ printed s' = printed s.
Proof.
  induction ms as [|m ms IH]; intros s ev L.
  - exists s. cbn [notify_all]. auto.
  - cbn [notify_all notify]. rewrite (call_syntax_error n s lw o rv ev m L), !bind_ok.
    destruct (IH (store s lw (wobj o rv (syntax_error [m]))) (syntax_error [m])) as (s' & A & B & C & D & E); [eapply load_store_same; exact L |].
    exists s'. split; [exact A |]. split; [rewrite B; destruct ms; reflexivity |].
    split; [intros x y X Y; apply C; [exact X |]; rewrite load_store_other by congruence; exact Y |].
    split; [rewrite D; apply heap_store | exact E].
Qed.
End Calls.

Lemma world_run e wd r input : start_rule r -> world_of e wd ->
  match parse r (tokens e input) with
  | None => parser_errors (wd r input) <> [] /\ exists r' ch, made (wd r input) = Node r' ch
  | Some t => parser_errors (wd r input) = [] /\ made (wd r input) = t /\ exists ch, t = Node r ch
  end.
Proof.
  intros Hr W. destruct (W r input (tokens e input) Hr (proj2 (C49_token_stream e input _) eq_refl)) as [(n0 & A) _].
  pose proof (lex_stream (bad_rune e) (decode input)) as St. change (lex (bad_rune e) (decode input)) with (tokens e input) in St.
  destruct (A (max n0 (rdepth r (tokens e input))) ltac:(lia)) as (o & Ho & Ag).
  destruct (revery_may _ _ (rstart_verdict _ r _ Hr St (Nat.le_max_r n0 _)) o Ho) as (f & c & m & -> & V).
  cbn [agrees] in Ag. destruct Ag as (A1 & A2 & A3).
  destruct V as [[H1 H2]|(H1 & t & E & Ew & Sel)].
  - apply parse_none in H2. rewrite H2. tauto.
  - pose proof (proj2 (parse_selected _ _ _) Sel) as P. rewrite P. split; [|split].
    + destruct (parser_errors (wd r input)) eqn:Q; [reflexivity|]. exfalso. assert (K : failed m = true) by (apply A1; discriminate). congruence.
    + specialize (A2 H1). rewrite E in A2. injection A2 as <-. reflexivity.
    + inversion Sel; subst. eexists; reflexivity.
Qed.

Ltac libv := match goal with
  | |- context [lib ?f ?a] => let r := eval vm_compute in (lib f a) in change (lib f a) with r
  | |- context [global ?w ?x] => let r := eval vm_compute in (global w x) in change (global w x) with r
  end.

(** The parser object. *)
Definition pobj (input : gostring) (ls : list val) : obj := mkObj "parser.RFC5322Parser" [("input", VStr input); ("listeners", VSlice (TName "antlr.ErrorListener") (Some ls))].

Lemma alloc_heap s o : length (heap (alloc s o)) = S (length (heap s)).
Proof. unfold alloc. cbn [heap]. rewrite app_length. cbn. lia. Qed.

Ltac prefix input := match goal with
  | |- context [make package "walker" []] =>
    mk; go;
    match goal with |- context [alloc (alloc ?s ?p) ?w] =>
      change p with (pobj input [VConsole]); change w with (wobj None VNil VNil);
      let lp := fresh "lp" in let lw := fresh "lw" in let s1 := fresh "s1" in
      rewrite (alloc_heap s (pobj input [VConsole]));
      assert (P1 : load (alloc (alloc s (pobj input [VConsole])) (wobj None VNil VNil)) (Datatypes.length (heap s)) = Some (pobj input [VConsole]))
        by (eapply load_alloc_old, load_alloc_new);
      assert (W1 : load (alloc (alloc s (pobj input [VConsole])) (wobj None VNil VNil)) (S (Datatypes.length (heap s))) = Some (wobj None VNil VNil))
        by (rewrite <- (alloc_heap s (pobj input [VConsole])); apply load_alloc_new);
      assert (B1 : forall x o, load s x = Some o -> load (alloc (alloc s (pobj input [VConsole])) (wobj None VNil VNil)) x = Some o)
        by (intros; do 2 apply load_alloc_old; assumption);
      assert (N1 : Datatypes.length (heap (alloc (alloc s (pobj input [VConsole])) (wobj None VNil VNil))) = S (S (Datatypes.length (heap s))))
        by (rewrite !alloc_heap; reflexivity);
      assert (Q1 : printed (alloc (alloc s (pobj input [VConsole])) (wobj None VNil VNil)) = printed s) by reflexivity;
      set (s1 := alloc (alloc s (pobj input [VConsole])) (wobj None VNil VNil)) in *; clearbody s1
    end
  end.

Section Pieces.
Context (e : wenv) (wd : world).
Local Notation invoke := (invoke package e wd).
Implicit Types (n : nat) (s : gst).

Lemma call_remove n s lp input ls : load s lp = Some (pobj input ls) ->
  invoke (S n) (VPtr lp) "RemoveErrorListeners" [] s = Ok (VTuple []) (store s lp (pobj input [])).
Proof.
  intros P1. erewrite invoke_libm; [| discriminate | cbn [type_name]; rewrite P1; reflexivity | vm_compute; reflexivity | rewrite P1; vm_compute; reflexivity ].
  reflexivity.
Qed.
Lemma call_add n s lp input ls lw : load s lp = Some (pobj input ls) ->
  invoke (S n) (VPtr lp) "AddErrorListener" [VPtr lw] s = Ok (VTuple []) (store s lp (pobj input (ls ++ [VPtr lw]))).
Proof.
  intros P1. erewrite invoke_libm; [| discriminate | cbn [type_name]; rewrite P1; reflexivity | vm_compute; reflexivity | rewrite P1; vm_compute; reflexivity ].
  reflexivity.
Qed.
Lemma call_walk n s lw r ch :
  invoke (S n) (VLib "antlr.ParseTreeWalker" []) "Walk" [VPtr lw; VCtx r ch] s = bind (walk_tree (invoke n) (VPtr lw) (Node r ch) s) (fun _ s => Ok (VTuple []) s).
Proof.
  erewrite invoke_libm; [| discriminate | reflexivity | vm_compute; reflexivity | vm_compute; reflexivity ]. reflexivity.
Qed.
Lemma call_run n s lp lw input m r r' ch : (m = "AddressList" /\ r = R_addressList \/ m = "DateTime" /\ r = R_dateTime) ->
  load s lp = Some (pobj input [VPtr lw]) -> load s lw = Some (wobj None VNil VNil) -> made (wd r input) = Node r' ch ->
  exists s', invoke (S (10 + n)) (VPtr lp) m [] s = Ok (VCtx r' ch) s' /\
    load s' lw = Some (wobj None VNil (match parser_errors (wd r input) with [] => VNil | _ => syntax_error (parser_errors (wd r input)) end)) /\
    (forall x y, x <> lw -> load s x = Some y -> load s' x = Some y) /\ length (heap s') = length (heap s) /\ printed s' = printed s ++ lexer_errors (wd r input).
Proof.
  intros Hm P1 W1 M.
  destruct (call_notify e wd n lw None VNil (parser_errors (wd r input)) (mkGst (heap s) (printed s ++ lexer_errors (wd r input))) VNil W1) as (s' & A & B & C & D & E).
  exists s'. split.
  - destruct Hm as [(-> & ->)|(-> & ->)].
    + erewrite invoke_libm; [| discriminate | cbn [type_name]; rewrite P1; reflexivity | vm_compute; reflexivity | rewrite P1; vm_compute; reflexivity ].
      rewrite P1. cbn [o_fields pobj assoc String.eqb Ascii.eqb Bool.eqb members]. rewrite A, bind_ok, M. reflexivity.
    + erewrite invoke_libm; [| discriminate | cbn [type_name]; rewrite P1; reflexivity | vm_compute; reflexivity | rewrite P1; vm_compute; reflexivity ].
      rewrite P1. cbn [o_fields pobj assoc String.eqb Ascii.eqb Bool.eqb members]. rewrite A, bind_ok, M. reflexivity.
  - split; [exact B|]. split; [exact C|]. split; [exact D | exact E].
Qed.
End Pieces.

Ltac begin name input :=
  unfold call_function;
  (let t := eval vm_compute in (assoc name (p_funcs package)) in change (assoc name (p_funcs package)) with t);
  look;
  match goal with |- context [execs _ _ _ (60 + ?n)] => change (60 + n) with (30 + (30 + n)); fuel30 (30 + n); fuel30 n end;
  assert (L : (Z.of_nat (Datatypes.length input) =? 0)%Z = false) by (destruct input; [contradiction | reflexivity]);
  go; rewrite L; look; go; repeat (libv; look; go); prefix input;
  erewrite call_remove by eassumption; go; erewrite call_add by (eapply load_store_same; eassumption); go; look.

(** The state in which the rule function is called. *)
Lemma ready s s1 input : load s1 (length (heap s)) = Some (pobj input [VConsole]) -> load s1 (S (length (heap s))) = Some (wobj None VNil VNil) ->
  (forall x o, load s x = Some o -> load s1 x = Some o) -> length (heap s1) = S (S (length (heap s))) -> printed s1 = printed s ->
  let s2 := store (store s1 (length (heap s)) (pobj input [])) (length (heap s)) (pobj input [VPtr (S (length (heap s)))]) in
  load s2 (length (heap s)) = Some (pobj input [VPtr (S (length (heap s)))]) /\ load s2 (S (length (heap s))) = Some (wobj None VNil VNil) /\
  (forall x o, load s x = Some o -> load s2 x = Some o) /\ length (heap s2) = S (S (length (heap s))) /\ printed s2 = printed s.
Proof.
  intros P1 W1 B1 N1 Q1 s2. assert (Len : forall x o, load s x = Some o -> x < length (heap s)) by (intros x o H; exact (nth_lt _ _ _ H)).
  unfold s2. split; [|split; [|split; [|split]]].
  - eapply load_store_same. eapply load_store_same. exact P1.
  - rewrite !load_store_other by lia. exact W1.
  - intros x o H. specialize (Len x o H). rewrite !load_store_other by lia. apply B1. exact H.
  - rewrite !heap_store. exact N1.
  - exact Q1.
Qed.

Ltac ran e wd R_ m input R2 := 
  match goal with
  | P1 : load ?s1 (Datatypes.length (heap ?s)) = Some (pobj input [VConsole]), W1 : load ?s1 (S (Datatypes.length (heap ?s))) = Some (wobj None VNil VNil),
    B1 : (forall x o, load ?s x = Some o -> load ?s1 x = Some o), N1 : Datatypes.length (heap ?s1) = _, Q1 : printed ?s1 = printed ?s |- _ =>
      destruct (ready s s1 input P1 W1 B1 N1 Q1) as (P2 & W2 & B2 & N2 & Q2);
      match goal with |- context [GoRun.invoke _ _ _ (S (S (S (S (S (S (S (S (S (S (S ?k))))))))))) _ m _ ?s2] =>
        let A := fresh "A" in let Ha := fresh in
        assert (Ha : m = "AddressList" /\ R_ = R_addressList \/ m = "DateTime" /\ R_ = R_dateTime) by (tauto || auto);
        destruct (call_run e wd k s2 _ _ input m R_ _ _ Ha P2 W2 R2) as (s3 & A & W3 & B3 & N3 & Q3);
        cbn [Nat.add] in A; rewrite A; clear A Ha;
        assert (B4 : forall x o, load s x = Some o -> load s3 x = Some o)
          by (intros x o H; apply B3; [pose proof (nth_lt _ _ _ H); lia | apply B2; exact H]);
        rewrite Q2 in Q3; rewrite N2 in N3; clear P1 W1 B1 N1 Q1 P2 W2 B2 B3 N2 Q2
      end
  end.

Section Core.
Context (e : env) (wd : world) (W : world_of e wd).
Local Notation call := (call_function package (wenv_of e) wd).
Implicit Types (n : nat) (s : gst).

Lemma list_rejected n s input : input <> [] -> parse R_addressList (tokens e input) = None ->
  exists s', call (60 + n) "ParseAddressList" [VStr input] s = Ok (VTuple [VNil; syntax_error (parser_errors (wd R_addressList input))]) s' /\
    (forall x o, load s x = Some o -> load s' x = Some o) /\ printed s' = printed s ++ lexer_errors (wd R_addressList input).
Proof.
  intros Hi HP. pose proof (world_run e wd R_addressList input (or_introl eq_refl) W) as R. rewrite HP in R. destruct R as (R1 & r' & ch & R2).
  begin "ParseAddressList" input. ran (wenv_of e) wd R_addressList "AddressList" input R2.
  destruct (parser_errors (wd R_addressList input)) as [|m0 ms]; [contradiction|].
  unfold syntax_error in *. unfold wobj in W3. go. exists s3. auto.
Qed.
Lemma time_rejected n s input : input <> [] -> parse R_dateTime (tokens e input) = None ->
  exists s', call (60 + n) "ParseDateTime" [VStr input] s = Ok (VTuple [VTime zero_time; syntax_error (parser_errors (wd R_dateTime input))]) s' /\
    (forall x o, load s x = Some o -> load s' x = Some o) /\ printed s' = printed s ++ lexer_errors (wd R_dateTime input).
Proof.
  intros Hi HP. pose proof (world_run e wd R_dateTime input (or_intror eq_refl) W) as R. rewrite HP in R. destruct R as (R1 & r' & ch & R2).
  begin "ParseDateTime" input. ran (wenv_of e) wd R_dateTime "DateTime" input R2.
  destruct (parser_errors (wd R_dateTime input)) as [|m0 ms]; [contradiction|].
  unfold syntax_error in *. unfold wobj in W3. go. exists s3. auto.
Qed.

Lemma initial s s3 : load s3 (S (length (heap s))) = Some (wobj None VNil VNil) -> (forall x o, load s x = Some o -> load s3 x = Some o) ->
  length (heap s3) = S (S (length (heap s))) -> paired (heap s) (S (length (heap s))) init_w s3 [] [] [].
Proof.
  intros W3 B4 N3. constructor.
  - exact B4.
  - rewrite N3. lia.
  - lia.
  - exists None, VNil, VNil. split; [exact W3 |]. split; [reflexivity |]. split; [split; reflexivity | reflexivity].
  - constructor.
  - split; constructor.
  - split; constructor.
Qed.

Lemma list_accepted n s input t st a : input <> [] -> parse R_addressList (tokens e input) = Some t ->
  walk (wenv_of e) t init_w = Some st -> res st = ResList a -> err st = None ->
  exists s' ls, call (60 + n) "ParseAddressList" [VStr input] s = Ok (VTuple [av a ls; VNil]) s' /\ are s' ls (elems a) /\
    NoDup ls /\ Forall (fun x => length (heap s) <= x) ls /\
    (forall x o, load s x = Some o -> load s' x = Some o) /\ printed s' = printed s ++ lexer_errors (wd R_addressList input).
Proof.
  intros Hi HP Wk Rs Er. pose proof (world_run e wd R_addressList input (or_introl eq_refl) W) as R. rewrite HP in R. destruct R as (R1 & R2 & ch & ->).
  begin "ParseAddressList" input. ran (wenv_of e) wd R_addressList "AddressList" input R2.
  rewrite R1 in W3. unfold wobj in W3. go. libv. look. go. fold (wobj None VNil VNil) in W3.
  rewrite call_walk.
  match goal with |- context [walk_tree (GoRun.invoke _ _ _ ?k) ?v ?t ?s0] =>
    match k with S (S (S (S (S (S (S (S (S (S (S (S (S (S (S (S (S (S (S (S (S (S (S (S (S (S (S (S (S (S (S (S (S (S (S (S (S (S (S (S ?k'))))))))))))))))))))))))))))))))))))))) =>
    destruct (walk_paired (wenv_of e) wd k' _ _ _ _ _ _ _ _ st (initial s s3 W3 B4 N3) Wk) as (s4 & lns & lss & lsr & A & Pd & Q4)
    end end.
  cbn [Nat.add] in A. rewrite A. go.
  destruct (p_w _ _ _ _ _ _ _ Pd) as (o & rv & ev & W4 & _ & Hr & He). rewrite Rs in Hr. destruct Hr as [-> Hr]. rewrite Er in He. cbn [errs] in He. subst ev.
  unfold wobj in W4. go. cbn [is_type av gty_eqb String.eqb Ascii.eqb Bool.eqb]. go.
  exists s4, lsr. split; [reflexivity |]. split; [exact Hr |].
  destruct (p_adr _ _ _ _ _ _ _ Pd) as [D1 D2]. split; [exact (nodup_right _ _ D1) |].
  split; [apply Forall_app in D2; apply D2 |]. split; [exact (p_base _ _ _ _ _ _ _ Pd) |]. rewrite Q4. exact Q3.
Qed.
Lemma time_accepted n s input t st v : input <> [] -> parse R_dateTime (tokens e input) = Some t ->
  walk (wenv_of e) t init_w = Some st -> res st = ResTime v -> err st = None ->
  exists s', call (60 + n) "ParseDateTime" [VStr input] s = Ok (VTuple [VTime v; VNil]) s' /\
    (forall x o, load s x = Some o -> load s' x = Some o) /\ printed s' = printed s ++ lexer_errors (wd R_dateTime input).
Proof.
  intros Hi HP Wk Rs Er. pose proof (world_run e wd R_dateTime input (or_intror eq_refl) W) as R. rewrite HP in R. destruct R as (R1 & R2 & ch & ->).
  begin "ParseDateTime" input. ran (wenv_of e) wd R_dateTime "DateTime" input R2.
  rewrite R1 in W3. unfold wobj in W3. go. libv. look. go. fold (wobj None VNil VNil) in W3.
  rewrite call_walk.
  match goal with |- context [walk_tree (GoRun.invoke _ _ _ ?k) ?v ?t ?s0] =>
    match k with S (S (S (S (S (S (S (S (S (S (S (S (S (S (S (S (S (S (S (S (S (S (S (S (S (S (S (S (S (S (S (S (S (S (S (S (S (S (S (S ?k'))))))))))))))))))))))))))))))))))))))) =>
    destruct (walk_paired (wenv_of e) wd k' _ _ _ _ _ _ _ _ st (initial s s3 W3 B4 N3) Wk) as (s4 & lns & lss & lsr & A & Pd & Q4)
    end end.
  cbn [Nat.add] in A. rewrite A. go.
  destruct (p_w _ _ _ _ _ _ _ Pd) as (o & rv & ev & W4 & _ & Hr & He). rewrite Rs in Hr. destruct Hr as [-> Hr]. rewrite Er in He. cbn [errs] in He. subst ev.
  unfold wobj in W4. go. cbn [is_type String.eqb Ascii.eqb Bool.eqb]. go.
  exists s4. split; [reflexivity |]. split; [exact (p_base _ _ _ _ _ _ _ Pd) |]. rewrite Q4. exact Q3.
Qed.
End Core.

(** ** The theorems *)
Section Theorems.
Context (e : env) (wd : world) (W : world_of e wd).
Local Notation call := (call_function package (wenv_of e) wd).
Implicit Types (n : nat) (s : gst).

Lemma list_call n s input : exists a x ls s' v er,
  call (60 + n) "ParseAddressList" [VStr input] s = Ok (VTuple [a; x]) s' /\ ParseAddressList e input = Ret v er /\
  holds_list s' a ls v /\ holds_error (parser_errors (wd R_addressList input)) x er /\
  NoDup ls /\ Forall (fun p => load s p = None) ls /\ (forall p o, load s p = Some o -> load s' p = Some o) /\
  printed s' = printed s ++ (match input with [] => [] | _ => lexer_errors (wd R_addressList input) end).
Proof.
  destruct (parse_address_list_cases e input) as [(-> & E)|[(Hi & Nl & E)|(Hi & ch & Sel & De & Yi & To & E)]].
  - exists (VSlice (TPtr (TName "mail.Address")) (Some [])), VNil, [], s, (Some []), None.
    split; [reflexivity |]. split; [exact E |]. split; [split; [reflexivity | constructor] |]. split; [reflexivity |].
    split; [constructor |]. split; [constructor |]. split; [auto |]. rewrite app_nil_r. reflexivity.
  - assert (HP : parse R_addressList (tokens e input) = None) by (apply parse_none; exact Nl).
    pose proof (world_run e wd R_addressList input (or_introl eq_refl) W) as R. rewrite HP in R.
    destruct (list_rejected e wd W n s input Hi HP) as (s' & A & B & C).
    exists VNil, (syntax_error (parser_errors (wd R_addressList input))), [], s', None, (Some ESyntax).
    split; [exact A |]. split; [exact E |]. split; [split; [left; reflexivity | reflexivity] |]. split; [split; [apply R | reflexivity] |].
    split; [constructor |]. split; [constructor |]. split; [exact B |]. destruct input; [contradiction | exact C].
  - assert (HP : parse R_addressList (tokens e input) = Some (Node R_addressList ch)) by (apply parse_selected; exact Sel).
    destruct (list_accepted e wd W n s input _ _ _ Hi HP (walk_addressList _ _ De To) eq_refl eq_refl) as (s' & ls & A & Ar & D & F & B & C).
    exists (av (list_value (wenv_of e) ch) ls), VNil, ls, s', (list_value (wenv_of e) ch), None.
    split; [exact A |]. split; [exact E |]. split.
    { unfold holds_list, av. destruct (list_value (wenv_of e) ch) as [l|]; [split; [reflexivity | exact Ar]|].
      split; [right; reflexivity |]. inversion Ar. reflexivity. }
    split; [reflexivity |]. split; [exact D |]. split.
    { eapply Forall_impl; [|exact F]. intros p Hp. apply nth_error_None. exact Hp. }
    split; [exact B |]. destruct input; [contradiction | exact C].
Qed.

Lemma time_call n s input : exists x s' v er,
  call (60 + n) "ParseDateTime" [VStr input] s = Ok (VTuple [VTime v; x]) s' /\ ParseDateTime e input = Ret v er /\
  holds_error (parser_errors (wd R_dateTime input)) x er /\ (forall p o, load s p = Some o -> load s' p = Some o) /\
  printed s' = printed s ++ (match input with [] => [] | _ => lexer_errors (wd R_dateTime input) end).
Proof.
  destruct (parse_date_time_cases e input) as [(-> & E)|[(Hi & Nl & E)|(Hi & ch & Sel & De & Yi & To & E)]].
  - exists VNil, s, zero_time, None. split; [reflexivity |]. split; [exact E |]. split; [reflexivity |]. split; [auto |]. rewrite app_nil_r. reflexivity.
  - assert (HP : parse R_dateTime (tokens e input) = None) by (apply parse_none; exact Nl).
    pose proof (world_run e wd R_dateTime input (or_intror eq_refl) W) as R. rewrite HP in R.
    destruct (time_rejected e wd W n s input Hi HP) as (s' & A & B & C).
    exists (syntax_error (parser_errors (wd R_dateTime input))), s', zero_time, (Some ESyntax).
    split; [exact A |]. split; [exact E |]. split; [split; [apply R | reflexivity] |]. split; [exact B |]. destruct input; [contradiction | exact C].
  - assert (HP : parse R_dateTime (tokens e input) = Some (Node R_dateTime ch)) by (apply parse_selected; exact Sel).
    destruct (time_accepted e wd W n s input _ _ _ Hi HP (walk_dateTime _ _ De To) eq_refl eq_refl) as (s' & A & B & C).
    exists VNil, s', (time_value (wenv_of e) ch), None.
    split; [exact A |]. split; [exact E |]. split; [reflexivity |]. split; [exact B |]. destruct input; [contradiction | exact C].
Qed.

(** C70: The statements of the Go files, executed one by one on any heap, return what Api.v says; they never
    panic and never get stuck.  The error's text ends with the last message of the parser. *)
Theorem C70_ParseAddressList n s input : exists a x ls s' v er,
  call (60 + n) "ParseAddressList" [VStr input] s = Ok (VTuple [a; x]) s' /\ ParseAddressList e input = Ret v er /\
  holds_list s' a ls v /\ holds_error (parser_errors (wd R_addressList input)) x er.
Proof. destruct (list_call n s input) as (a & x & ls & s' & v & er & H). exists a, x, ls, s', v, er. tauto. Qed.
Theorem C70_ParseDateTime n s input : exists x s' v er,
  call (60 + n) "ParseDateTime" [VStr input] s = Ok (VTuple [VTime v; x]) s' /\ ParseDateTime e input = Ret v er /\
  holds_error (parser_errors (wd R_dateTime input)) x er.
Proof. destruct (time_call n s input) as (x & s' & v & er & H). exists x, s', v, er. tauto. Qed.

(** C71: The addresses of a result are new objects, no two of them the same, and all objects that existed before
    the call are as they were. *)
Theorem C71_new_addresses n s input t ps x s' :
  call (60 + n) "ParseAddressList" [VStr input] s = Ok (VTuple [VSlice t (Some ps); x]) s' ->
  exists ls, ps = map VPtr ls /\ NoDup ls /\ Forall (fun p => load s p = None /\ exists o, load s' p = Some o /\ o_type o = "mail.Address") ls.
Proof.
  intros H. destruct (list_call n s input) as (a & x' & ls & s1 & v & er & A & E & L & Er & D & F & _). rewrite A in H. injection H as -> -> ->.
  unfold holds_list in L. destruct v as [l|]; [|destruct L as [[K|K] _]; discriminate].
  destruct L as [K Ar]. injection K as _ ->. exists ls. split; [reflexivity |]. split; [exact D |].
  clear A E Er D. induction Ar as [|p m ls l Hp Ar IH]; constructor.
  - inversion F; subst. split; [assumption |]. exists (address_object m). split; [exact Hp | reflexivity].
  - inversion F; subst. apply IH. assumption.
Qed.
Theorem C71_objects_are_kept n s input r s' : In r ["ParseAddressList"; "ParseDateTime"] ->
  forall u, call (60 + n) r [VStr input] s = Ok u s' -> forall p o, load s p = Some o -> load s' p = Some o.
Proof.
  intros [<-|[<-|[]]] u H.
  - destruct (list_call n s input) as (a & x' & ls & s1 & v & er & A & _ & _ & _ & _ & _ & B & _).
    rewrite A in H; injection H as _ <-; exact B.
  - destruct (time_call n s input) as (x' & s1 & v & er & A & _ & _ & B & _).
    rewrite A in H; injection H as _ <-; exact B.
Qed.

(** C72: What a call prints on the console are the lexer's messages; the parser's are not printed. *)
Theorem C72_prints_lexer_messages n s input f r u s' : In (f, r) [("ParseAddressList", R_addressList); ("ParseDateTime", R_dateTime)] ->
  call (60 + n) f [VStr input] s = Ok u s' ->
  printed s' = printed s ++ (match input with [] => [] | _ => lexer_errors (wd r input) end).
Proof.
  intros [K|[K|[]]] H; injection K as <- <-.
  - destruct (list_call n s input) as (a & x' & ls & s1 & v & er & A & _ & _ & _ & _ & _ & _ & C).
    rewrite A in H; injection H as _ <-; exact C.
  - destruct (time_call n s input) as (x' & s1 & v & er & A & _ & _ & _ & C).
    rewrite A in H; injection H as _ <-; exact C.
Qed.
Theorem C72_prints_nothing n s input f u s' : In f ["ParseAddressList"; "ParseDateTime"] ->
  (forall c, In c (decode input) -> (c <= 65535)%N) -> call (60 + n) f [VStr input] s = Ok u s' -> printed s' = printed s.
Proof.
  intros Hf Hc H.
  assert (K : exists r, In (f, r) [("ParseAddressList", R_addressList); ("ParseDateTime", R_dateTime)] /\ start_rule r).
  { destruct Hf as [<-|[<-|[]]]; [exists R_addressList | exists R_dateTime]; split; cbn; auto; unfold start_rule; auto. }
  destruct K as (r & K & Hr). rewrite (C72_prints_lexer_messages n s input f r u s' K H).
  destruct input as [|b input']; [apply app_nil_r |]. destruct (lexer_errors (wd r (b :: input'))) as [|m ms] eqn:Q; [apply app_nil_r |]. exfalso.
  destruct (proj2 (W r (b :: input') _ Hr (proj2 (C49_token_stream e _ _) eq_refl))) as (c & rest & Ic & Nc); [rewrite Q; discriminate |].
  apply Hc in Ic. apply (C49_every_character_is_a_token c rest) in Ic as (t' & u' & rest' & Ht). exact (Nc _ _ _ Ht).
Qed.
End Theorems.

(** Two calls, one after the other, whatever happened to the heap in between. *)
Theorem C71_second_call e wd1 wd2 n m s1 s2 input u : world_of e wd1 -> world_of e wd2 ->
  forall a x s1', call_function package (wenv_of e) wd1 (60 + n) "ParseAddressList" [VStr input] s1 = Ok (VTuple [a; x]) s1' ->
  forall b y s2', call_function package (wenv_of e) wd2 (60 + m) "ParseAddressList" [VStr u] s2 = Ok (VTuple [b; y]) s2' ->
  length (heap s1') <= length (heap s2) ->
  forall t ps t' qs, a = VSlice t (Some ps) -> b = VSlice t' (Some qs) -> forall p, In p ps -> ~ In p qs.
Proof.
  intros W1 W2 a x s1' H1 b y s2' H2 Le t ps t' qs -> -> p Ip Iq.
  destruct (C71_new_addresses e wd1 W1 n s1 input t ps x s1' H1) as (ls & -> & _ & F1).
  destruct (C71_new_addresses e wd2 W2 m s2 u t' qs y s2' H2) as (ls' & -> & _ & F2).
  apply in_map_iff in Ip as (l & <- & Il). apply in_map_iff in Iq as (l' & El & Il'). injection El as ->.
  rewrite Forall_forall in F1, F2. destruct (F1 l Il) as (_ & o & Lo & _). destruct (F2 l Il') as (No & _).
  apply nth_lt in Lo. apply nth_error_None in No. unfold load in *. lia.
Qed.

(** ** The hypotheses can be met *)
Definition some_world (e : env) : world := fun r input =>
  mkRun (if forallb (fun c => match lex_rune c with Some _ => true | None => false end) (decode input) then [] else [bs "token recognition error"])
    (match parse r (tokens e input) with None => [bs "first"; bs "second"] | Some _ => [] end)
    (match parse r (tokens e input) with None => Node r [] | Some t => t end).
Lemma some_world_ok e : world_of e (some_world e).
Proof.
  intros r input w Hr Hw. apply C49_token_stream in Hw as ->. pose proof (lex_stream (bad_rune e) (decode input)) as St. change (lex (bad_rune e) (decode input)) with (tokens e input) in St.
  split.
  - destruct (C65_every_run_ends r _ Hr St) as (n0 & H). exists n0. intros n Hn. destruct (H n Hn) as [(o & Ho) V]. exists o. split; [exact Ho |].
    destruct (V o Ho) as (f & c & m & -> & V1 & V2). cbn [agrees some_world parser_errors made].
    destruct (parse r (tokens e input)) as [t|] eqn:P.
    + apply parse_selected in P. assert (Fm : failed m = false).
      { destruct (failed m); [|reflexivity]. exfalso. apply (proj1 V1 eq_refl). eapply selected_lang. exact P. }
      destruct (V2 Fm) as (t' & -> & _ & Sel'). apply parse_selected in P. apply parse_selected in Sel'. rewrite P in Sel'. injection Sel' as <-.
      split; [split; [intros K; contradiction | congruence] |]. split; [auto |]. apply parse_selected in P. inversion P; subst. eauto.
    + apply parse_none in P. apply V1 in P. split; [split; [auto | discriminate] |]. split; [congruence | eauto].
  - cbn [some_world lexer_errors]. destruct (forallb _ (decode input)) eqn:F; [intros K; contradiction |]. intros _.
    clear St. induction (decode input) as [|c l IH]; [discriminate |]. cbn [forallb] in F. destruct (lex_rune c) eqn:Q.
    + destruct (IH F) as (c' & rest & Ic & K). exists c', rest. split; [right; exact Ic | exact K].
    + exists c, []. split; [left; reflexivity |]. intros t' u' rest' K. apply lexeme_iff in K. destruct K as [K _]. congruence.
Qed.

(** What a caller sees: the addresses in the result, the error, the console. *)
Definition seen (o : out val) : option (list (option obj) * val * list gostring) :=
  match o with
  | Ok (VTuple [VSlice _ (Some ps); x]) s => Some (map (fun p => match p with VPtr l => load s l | _ => None end) ps, x, printed s)
  | Ok (VTuple [_; x]) s => Some ([], x, printed s)
  | _ => None
  end.
Example C70_run : seen (call_function package (wenv_of env1) (some_world env1) 60 "ParseAddressList" [VStr (bs "A <a@b>, g: c@d;")] (mkGst [] [])) =
  Some ([Some (mkObj "mail.Address" [("Name", VStr (bs "A")); ("Address", VStr (bs "a@b"))]);
         Some (mkObj "mail.Address" [("Name", VStr []); ("Address", VStr (bs "c@d"))])], VNil, []).
Proof. vm_compute. reflexivity. Qed.
Example C70_run_error : seen (call_function package (wenv_of env1) (some_world env1) 60 "ParseAddressList" [VStr (bs "a@" ++ [240; 159; 152; 128]%N)] (mkGst [] [])) =
  Some ([], VErr (ErrText (bs "error parsing rfc5322 input: second")), [bs "token recognition error"]).
Proof. vm_compute. reflexivity. Qed.
Example C70_run_time : match call_function package (wenv_of env1) (some_world env1) 60 "ParseDateTime" [VStr (bs "1 Jan 20 10:10")] (mkGst [] []) with
  | Ok (VTuple [VTime v; VNil]) _ => ParseDateTime env1 (bs "1 Jan 20 10:10") = Ret v None | _ => False end.
Proof. vm_compute. reflexivity. Qed.
