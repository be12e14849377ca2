(** Equations for the interpreter of GoRun.v, and the heap. *)
From Coq Require Import String List NArith ZArith Bool Arith Lia.
From Verif Require Import Lexer Grammar Utf8 Strs Mime GoTime Parser Walker GoSyntax GoCode GoRun.
Import ListNotations.

(** ** The heap *)
Lemma load_alloc_new s o : load (alloc s o) (length (heap s)) = Some o.
Proof. unfold load, alloc; cbn. rewrite nth_error_app2 by lia. now rewrite Nat.sub_diag. Qed.
Lemma load_lt s l x : load s l = Some x -> l < length (heap s).
Proof. intros H. apply nth_error_Some. unfold load in H. now rewrite H. Qed.
Lemma load_alloc_lt s o l : l < length (heap s) -> load (alloc s o) l = load s l.
Proof. intros H. unfold load, alloc; cbn. now rewrite nth_error_app1. Qed.
Lemma load_alloc_old s o l x : load s l = Some x -> load (alloc s o) l = Some x.
Proof. intros H. rewrite load_alloc_lt; [exact H | now apply load_lt in H]. Qed.
Lemma replace_length o h : forall l, length (replace l o h) = length h.
Proof. induction h as [|x h IH]; intros [|l]; cbn; [reflexivity .. | now rewrite IH]. Qed.
Lemma replace_same o h : forall l, l < length h -> nth_error (replace l o h) l = Some o.
Proof. induction h as [|x h IH]; intros [|l] H; cbn in *; [lia | lia | reflexivity | apply IH; lia]. Qed.
Lemma replace_other o h : forall l l', l <> l' -> nth_error (replace l o h) l' = nth_error h l'.
Proof. induction h as [|x h IH]; intros [|l] [|l'] H; cbn; try reflexivity; [lia | apply IH; lia]. Qed.
Lemma load_store_same s l o x : load s l = Some x -> load (store s l o) l = Some o.
Proof. intros H. unfold load, store; cbn. apply replace_same. now apply load_lt in H. Qed.
Lemma load_store_other s l l' o : l <> l' -> load (store s l o) l' = load s l'.
Proof. intros H. unfold load, store; cbn. now apply replace_other. Qed.
Lemma heap_store s l o : length (heap (store s l o)) = length (heap s).
Proof. apply replace_length. Qed.
Lemma heap_alloc s o : length (heap (alloc s o)) = S (length (heap s)).
Proof. unfold alloc; cbn. rewrite app_length; cbn. lia. Qed.
Lemma printed_store s l o : printed (store s l o) = printed s. Proof. reflexivity. Qed.
Lemma printed_alloc s o : printed (alloc s o) = printed s. Proof. reflexivity. Qed.

(** ** The interpreter, one step *)
Section Equations.
Context (P : program) (e : wenv) (wd : world).
Local Notation eval := (eval P e wd).
Local Notation evals := (evals P e wd).
Local Notation exec := (exec P e wd).
Local Notation execs := (execs P e wd).
Local Notation assign := (assign P e wd).
Local Notation invoke := (invoke P e wd).
Implicit Types (n : nat) (ev : locals) (s : gst).

Lemma bind_ok {A B} (a : A) s (k : A -> gst -> out B) : bind (Ok a s) k = k a s.
Proof. reflexivity. Qed.
Lemma eval_var n ev x s : eval (S n) ev (EVar x) s = match assoc x ev with Some v => Ok v s | None => Stuck end.
Proof. reflexivity. Qed.
Lemma eval_str n ev x s : eval (S n) ev (EStr x) s = Ok (VStr (bs x)) s. Proof. reflexivity. Qed.
Lemma eval_int n ev x s : eval (S n) ev (EInt x) s = Ok (VInt x) s. Proof. reflexivity. Qed.
Lemma eval_bool n ev x s : eval (S n) ev (EBool x) s = Ok (VBool x) s. Proof. reflexivity. Qed.
Lemma eval_nil n ev s : eval (S n) ev ENil s = Ok VNil s. Proof. reflexivity. Qed.
Lemma eval_const n ev t s : eval (S n) ev (EConst t) s = Ok (VInt (Z.of_N t)) s. Proof. reflexivity. Qed.
Lemma eval_empty n ev t s : eval (S n) ev (EEmpty t) s = Ok (VSlice t (Some [])) s. Proof. reflexivity. Qed.
Lemma eval_zero_time n ev s : eval (S n) ev (EStruct "time.Time" []) s = Ok (VTime zero_time) s. Proof. reflexivity. Qed.
Lemma eval_field n ev a f s : eval (S n) ev (EField a f) s =
  bind (eval n ev a s) (fun v s => match v with
    | VPtr l => match load s l with
                | Some o => match assoc f (o_fields o) with Some u => Ok u s | None => Stuck end
                | None => Stuck end
    | VNil => Panics
    | _ => Stuck end).
Proof. reflexivity. Qed.
Lemma eval_new n ev t fs s : eval (S n) ev (ENew t fs) s =
  bind (evals n ev (map snd fs) s) (fun vs s =>
    match make P t (combine (map fst fs) vs) with Some o => Ok (VPtr (length (heap s))) (alloc s o) | None => Stuck end).
Proof. reflexivity. Qed.
Lemma eval_and n ev a b s : eval (S n) ev (EBin OAnd a b) s =
  bind (eval n ev a s) (fun v s => match v with VBool true => eval n ev b s | VBool false => Ok (VBool false) s | _ => Stuck end).
Proof. reflexivity. Qed.
Definition strict (o : binop) : bool := match o with OAnd | OOr => false | _ => true end.
Lemma eval_bin n ev o a b s : strict o = true -> eval (S n) ev (EBin o a b) s =
  bind (eval n ev a s) (fun u s => bind (eval n ev b s) (fun v s => match binary o u v with Some x => Ok x s | None => Stuck end)).
Proof. destruct o; try discriminate; reflexivity. Qed.
Lemma eval_not n ev a s : eval (S n) ev (ENot a) s =
  bind (eval n ev a s) (fun v s => match v with VBool b => Ok (VBool (negb b)) s | _ => Stuck end).
Proof. reflexivity. Qed.
Lemma eval_neg n ev a s : eval (S n) ev (ENeg a) s =
  bind (eval n ev a s) (fun v s => match v with VInt z => Ok (VInt (i64 (- z))) s | _ => Stuck end).
Proof. reflexivity. Qed.
Lemma eval_global n ev x s : eval (S n) ev (EGlobal x) s = match global e x with Some v => Ok v s | None => Stuck end.
Proof. reflexivity. Qed.
Lemma eval_call n ev f args s : eval (S n) ev (ECall f args) s =
  bind (evals n ev args s) (fun vs s => match lib f vs with
    | Some (LVal v) => Ok v s
    | Some (LNew o) => Ok (VPtr (length (heap s))) (alloc s o)
    | None => Stuck end).
Proof. reflexivity. Qed.
Lemma eval_method n ev a m args s : eval (S n) ev (EMethod a m args) s =
  bind (eval n ev a s) (fun v s => bind (evals n ev args s) (fun vs s => invoke n v m vs s)).
Proof. reflexivity. Qed.
Lemma eval_assert n ev a t s : eval (S n) ev (EAssert a t) s =
  bind (eval n ev a s) (fun v s => if is_type s v t then Ok v s else Panics).
Proof. reflexivity. Qed.
Lemma eval_index n ev a i s : eval (S n) ev (EIndex a i) s =
  bind (eval n ev a s) (fun u s => bind (eval n ev i s) (fun v s =>
    match u, v with
    | VSlice _ l, VInt z =>
        if Z.ltb z 0 then Panics else match nth_error (members l) (Z.to_nat z) with Some x => Ok x s | None => Panics end
    | _, _ => Stuck end)).
Proof. reflexivity. Qed.
Lemma eval_slice n ev a i j s : eval (S n) ev (ESlice a i j) s =
  bind (eval n ev a s) (fun u s => bind (eval n ev i s) (fun v s => bind (eval n ev j s) (fun w s =>
    match u, v, w with
    | VStr t, VInt x, VInt y =>
        if Z.leb 0 x && Z.leb x y && Z.leb y (Z.of_nat (length t))
        then Ok (VStr (firstn (Z.to_nat y - Z.to_nat x) (skipn (Z.to_nat x) t))) s else Panics
    | VSlice t l, VInt 0, VInt y =>
        if Z.ltb y 0 then Panics
        else if Z.leb y (Z.of_nat (length (members l))) then Ok (VSlice t (option_map (firstn (Z.to_nat y)) l)) s else Stuck
    | _, _, _ => Stuck end))).
Proof. reflexivity. Qed.
Lemma eval_len n ev a s : eval (S n) ev (ELen a) s =
  bind (eval n ev a s) (fun v s => match v with
    | VStr t => Ok (VInt (Z.of_nat (length t))) s
    | VSlice _ l => Ok (VInt (Z.of_nat (length (members l)))) s
    | _ => Stuck end).
Proof. reflexivity. Qed.
Lemma eval_toint n ev a s : eval (S n) ev (EToInt a) s =
  bind (eval n ev a s) (fun v s => match v with VSeconds d => Ok (VInt (duration_seconds d)) s | _ => Stuck end).
Proof. reflexivity. Qed.
Lemma eval_append n ev a b s : eval (S n) ev (EAppend a b) s =
  bind (eval n ev a s) (fun u s => bind (eval n ev b s) (fun v s =>
    match u with VSlice t l => Ok (VSlice t (Some (members l ++ [v]))) s | _ => Stuck end)).
Proof. reflexivity. Qed.
Lemma eval_appendall n ev a b s : eval (S n) ev (EAppendAll a b) s =
  bind (eval n ev a s) (fun u s => bind (eval n ev b s) (fun v s =>
    match u, v with
    | VSlice t l, VSlice t' l' =>
        if gty_eqb t t' then
          Ok (VSlice t (match l, members l' with None, [] => None | _, xs => Some (members l ++ xs) end)) s
        else Stuck
    | _, _ => Stuck end)).
Proof. reflexivity. Qed.
Lemma evals_nil n ev s : evals (S n) ev [] s = Ok [] s. Proof. reflexivity. Qed.
Lemma evals_cons n ev x xs s : evals (S n) ev (x :: xs) s =
  bind (eval n ev x s) (fun v s => bind (evals n ev xs s) (fun vs s => Ok (v :: vs) s)).
Proof. reflexivity. Qed.
Lemma exec_var n ev x t s : exec (S n) ev (SVar x t) s = Ok ((x, zero t) :: ev, None) s. Proof. reflexivity. Qed.
Lemma exec_define n ev xs a s : exec (S n) ev (SDefine xs a) s =
  bind (eval n ev a s) (fun v s => match xs, v with
    | [x], _ => Ok ((x, v) :: ev, None) s
    | [x; y], VTuple [u; v'] => Ok ((x, u) :: (y, v') :: ev, None) s
    | _, _ => Stuck end).
Proof. reflexivity. Qed.
Lemma exec_assign n ev l a s : exec (S n) ev (SAssign l a) s = bind (eval n ev a s) (fun v s => assign n ev l v s).
Proof. reflexivity. Qed.
Lemma exec_addassign n ev l a s : exec (S n) ev (SAddAssign l a) s =
  bind (eval n ev l s) (fun u s => bind (eval n ev a s) (fun v s =>
    match binary OAdd u v with Some x => assign n ev l x s | None => Stuck end)).
Proof. reflexivity. Qed.
Lemma exec_expr n ev a s : exec (S n) ev (SExpr a) s = bind (eval n ev a s) (fun _ s => Ok (ev, None) s).
Proof. reflexivity. Qed.
Lemma exec_if n ev a b c s : exec (S n) ev (SIf a b c) s =
  bind (eval n ev a s) (fun v s => match v with
    | VBool t => bind (execs n ev (if t then b else c) s) (fun r s => Ok (leave ev (fst r), snd r) s)
    | _ => Stuck end).
Proof. reflexivity. Qed.
Lemma exec_ifis n ev x a i b s : exec (S n) ev (SIfIs x a i b) s =
  bind (eval n ev a s) (fun v s => match type_name s v with
    | Some t => if implements P t i then bind (execs n ((x, v) :: ev) b s) (fun r s => Ok (leave ev (fst r), snd r) s) else Ok (ev, None) s
    | None => Stuck end).
Proof. reflexivity. Qed.
Lemma exec_return n ev es s : exec (S n) ev (SReturn es) s =
  bind (evals n ev es s) (fun vs s => Ok (ev, Some (match vs with [v] => v | _ => VTuple vs end)) s).
Proof. reflexivity. Qed.
(** The cases of a switch, one after the other. *)
Definition pick n ev (v : val) (d : list gstmt) := fix pick (cs : list (gexpr * list gstmt)) s : out (locals * option val) :=
  match cs with
  | [] => bind (execs n ev d s) (fun r s => Ok (leave ev (fst r), snd r) s)
  | (l, b) :: cs' =>
      bind (eval n ev l s) (fun u s =>
        match binary OEq v u with
        | Some (VBool true) => bind (execs n ev b s) (fun r s => Ok (leave ev (fst r), snd r) s)
        | Some (VBool false) => pick cs' s
        | _ => Stuck end)
  end.
Lemma exec_switch n ev a cs d s : exec (S n) ev (SSwitch a cs d) s = bind (eval n ev a s) (fun v s => pick n ev v d cs s).
Proof. reflexivity. Qed.
(** The rounds of a loop. *)
Definition rounds n (x : string) (b : list gstmt) := fix rounds (vs : list val) ev s : out (locals * option val) :=
  match vs with
  | [] => Ok (ev, None) s
  | v :: vs' =>
      bind (execs n ((x, v) :: ev) b s) (fun r s =>
        match snd r with
        | Some u => Ok (leave ev (fst r), Some u) s
        | None => rounds vs' (leave ev (fst r)) s
        end)
  end.
Lemma exec_range n ev x a b s : exec (S n) ev (SRange x a b) s =
  bind (eval n ev a s) (fun v s => match v with VSlice _ l => rounds n x b (members l) ev s | _ => Stuck end).
Proof. reflexivity. Qed.
Lemma execs_nil n ev s : execs (S n) ev [] s = Ok (ev, None) s. Proof. reflexivity. Qed.
Lemma execs_cons n ev c cs s : execs (S n) ev (c :: cs) s =
  bind (exec n ev c s) (fun r s => match snd r with Some v => Ok r s | None => execs n (fst r) cs s end).
Proof. reflexivity. Qed.
Lemma assign_var n ev x v s : assign (S n) ev (EVar x) v s = match assoc x ev with Some _ => Ok (update x v ev, None) s | None => Stuck end.
Proof. reflexivity. Qed.
Lemma assign_field n ev a f v s : assign (S n) ev (EField a f) v s =
  bind (eval n ev a s) (fun u s => match u with
    | VPtr p => match load s p with
                | Some o => match assoc f (o_fields o) with
                            | Some _ => Ok (ev, None) (store s p (mkObj (o_type o) (update f v (o_fields o))))
                            | None => Stuck end
                | None => Stuck end
    | VNil => Panics
    | _ => Stuck end).
Proof. reflexivity. Qed.
Lemma invoke_own n recv m args s t f : recv <> VNil -> type_name s recv = Some t -> find_method P t m = Some f ->
  invoke (S n) recv m args s =
  bind (execs n ((f_recv f, recv) :: combine (map fst (f_params f)) args) (f_body f) s)
    (fun r s => Ok (match snd r with Some v => v | None => VTuple [] end) s).
Proof. intros H T F. destruct recv; try contradiction; cbn; cbn in T; rewrite ?T; try discriminate T; try (injection T as <-); now rewrite F. Qed.
Lemma invoke_lib n recv m args s t v : recv <> VNil -> type_name s recv = Some t -> find_method P t m = None ->
  lib_method e recv (match recv with VPtr l => match load s l with Some o => o_fields o | None => [] end | _ => [] end) t m args = Some (MVal v) ->
  invoke (S n) recv m args s = Ok v s.
Proof.
  intros H T F L. change (GoRun.invoke P e wd (S n)) with (fun recv m args s => GoRun.invoke P e wd (S n) recv m args s).
  destruct recv; try contradiction; cbn -[lib_method]; cbn in T; rewrite ?T; try discriminate T; try (injection T as <-); rewrite F; now rewrite L.
Qed.
End Equations.
