(** What is checked of the code of the rule functions: it agrees with the network, and where it decides by
    the next token alone, the next token decides. *)
From Coq Require Import List NArith ZArith Bool Arith Lia FMapPositive.
From Verif Require Import Lexer Grammar Parser Spec ParserFacts Static Cfws First GenSyntax GenAtn GenCode GenRun GenShape.
Import ListNotations.

(** ** Which token types can follow *)
Fixpoint firstk (k : list gexp) (after : list ttype) : list ttype :=
  match k with
  | [] => after
  | g :: k' => if nullable g then union (first g) (firstk k' after) else first g
  end.

(** Pairs of a rule and token types that can follow it inside [g]. *)
Fixpoint occ (g : gexp) (after : list ttype) : list (rule * list ttype) :=
  match g with
  | Cls _ | Eps => []
  | Nt r => [(r, after)]
  | Seq a b => occ a (if nullable b then union (first b) after else first b) ++ occ b after
  | Alt a b => occ a after ++ occ b after
  | Star a => occ a (union (first a) after)
  end.

Definition add_follow (tbl : list (list ttype)) (x : rule * list ttype) : list (list ttype) :=
  let i := rule_ix (fst x) in
  firstn i tbl ++ match skipn i tbl with [] => [] | l :: tbl' => union l (snd x) :: tbl' end.

Definition follow_round (tbl : list (list ttype)) : list (list ttype) :=
  fold_left (fun t r => fold_left add_follow (occ (body r) (look [] t r)) t) all_rules tbl.

Definition follow_table : list (list ttype) := Eval vm_compute in
  iter 8 follow_round (map (fun r => match r with R_addressList | R_dateTime => [T_EOF] | _ => [] end) all_rules).
Definition follow (r : rule) : list ttype := look [] follow_table r.

(** ** Checking statements *)

(** The number of a rule. *)
Definition rule_no (r : rule) : N := N.of_nat (rule_ix r).

Definition disjoint (a b : list ttype) : bool := forallb (fun t => negb (memb t b)) a.

(** A bit test concerns 32 token types from [off] on. *)
Definition cond_ok (c : cond) : bool :=
  forallb (fun x => match x with
    | CEq _ => true
    | CBits off ts => forallb (fun t => N.leb off t && N.ltb t (off + 32) && negb (N.eqb t T_EOF)) ts
    end) c.

(** The first transition of a state calls [r] and returns where [k] remains. *)
Definition calls (n : N) (r : rule) (k : list gexp) : bool :=
  match edges n with ERule b ix f :: _ => N.eqb b (rule_start r) && N.eqb ix (rule_no r) && is_res f (normk k) | _ => false end.

(** Each case of a switch is taken by the tokens with which its body can start, and by no others. *)
Fixpoint cases_ok (looks : list (list ttype)) (labels : list (list ttype)) : bool :=
  match looks, labels with
  | [], [] => true
  | x :: looks', y :: labels' => subset x y && forallb (fun z => disjoint z y) looks' && cases_ok looks' labels'
  | _, _ => false
  end.

(** A decision of a rule: its alternatives begin silently. *)
Definition decides (own : rule) (d : N) : bool := all_eps (alternatives d) && N.eqb (rule_of (decision_state d)) (rule_no own).

(** [chk s cur k own]: statement [s] in state [cur] (if known) of the rule function of [own], where [k]
    remains in the rule after [s]. *)
Fixpoint chk1 (s : stmt) (cur : option N) (k : list gexp) (own : rule) {struct s} : bool :=
  let chks := fix chks (l : list stmt) (cur : option N) (k : list gexp) {struct l} : bool :=
    match l with
    | [] => true
    | s :: l' =>
        chk1 s cur (gxl l' ++ k) own &&
        chks l' (match s with SState n => Some n | SSync => cur | _ => None end) k
    end in
  match s with
  | SState _ => true
  | SSync => match cur with Some n => is_res n (normk k) | None => false end
  | SMatch _ => true
  | SMatchSet c => cond_ok c
  | SCall r =>
      match cur with Some n => N.eqb (rule_of n) (rule_no own) && calls n r k | None => false end && subset (firstk k (follow own)) (follow r)
  | SIfLa c b =>
      let g := seqs (gxl b) in
      cond_ok c && negb (nullable g) && subset (first g) (cond_set c) && disjoint (firstk k (follow own)) (cond_set c) && chks b None k
  | SWhileLa c b | SDoLa c b =>
      let g := seqs (gxl b) in
      cond_ok c && negb (nullable g) && subset (first g) (cond_set c) && disjoint (firstk k (follow own)) (cond_set c) && chks b None (Star g :: k)
  | SSwitchLa bs =>
      Nat.leb 1 (length bs) && forallb (fun x => chks (snd x) None k) bs
      && cases_ok (map (fun x => firstk (gxl (snd x) ++ k) (follow own)) bs) (map fst bs)
  | SPredict d bs =>
      Nat.leb 1 (length bs) && forallb (fun b => chks b None k) bs && decides own d &&
      all2 is_res (eps_targets (alternatives d)) (map normk (map (fun b => gxl b ++ k) bs ++
        (if Nat.eqb (length bs) (length (alternatives d)) then [] else [k])))
  | SWhilePredict d b t | SDoPredict d b t =>
      let g := seqs (gxl b) in
      negb (nullable g) && match gxl t with [] => true | _ => false end &&
      chks b None (gxl t ++ Star g :: k) && chks t None (Star g :: k) &&
      decides own d &&
      all2 is_res (eps_targets (alternatives d)) (map normk [gxl b ++ Star g :: k; k])
  end.

Definition chk (own : rule) : list stmt -> option N -> list gexp -> bool :=
  fix chks (l : list stmt) (cur : option N) (k : list gexp) {struct l} : bool :=
    match l with
    | [] => true
    | s :: l' =>
        chk1 s cur (gxl l' ++ k) own &&
        chks l' (match s with SState n => Some n | SSync => cur | _ => None end) k
    end.

Lemma code_checked : forallb (fun r => chk r (code r) None []) all_rules = true.
Proof. vm_compute. reflexivity. Qed.

Lemma code_chk r : chk r (code r) None [] = true.
Proof. revert r. apply all_rules_forall. exact code_checked. Qed.

(** ** The depth of a run before it must consume a token *)
Definition nul (s : stmt) : bool := forallb nullable (gx1 s).

Fixpoint rk1 (tbl : list nat) (s : stmt) : nat :=
  let rks := fix rks (l : list stmt) : nat :=
    match l with [] => 1 | s :: l' => S (Nat.max (rk1 tbl s) (if nul s then rks l' else 0)) end in
  match s with
  | SState _ | SSync | SMatch _ | SMatchSet _ => 0
  | SCall r => look 0 tbl r
  | SIfLa _ b | SWhileLa _ b | SDoLa _ b | SWhilePredict _ b _ | SDoPredict _ b _ => rks b
  | SSwitchLa bs => fold_right (fun x m => Nat.max (rks (snd x)) m) 0 bs
  | SPredict _ bs => fold_right (fun x m => Nat.max (rks x) m) 0 bs
  end.

Definition rks_t (tbl : list nat) : list stmt -> nat :=
  fix rks (l : list stmt) : nat :=
    match l with [] => 1 | s :: l' => S (Nat.max (rk1 tbl s) (if nul s then rks l' else 0)) end.

Definition code_rank_table : list nat := Eval vm_compute in
  iter 67 (fun t => map (fun r => rks_t t (code r)) all_rules) (map (fun _ => 0) all_rules).
Definition rks : list stmt -> nat := rks_t code_rank_table.

Definition BC : nat := 100.

(** The depth of every sequence of statements is at most [BC]. *)
Fixpoint shallow1 (s : stmt) : bool :=
  let shallows := fix shallows (l : list stmt) : bool :=
    match l with [] => true | s :: l' => Nat.leb (rks (s :: l')) BC && shallow1 s && shallows l' end in
  match s with
  | SState _ | SSync | SMatch _ | SMatchSet _ => true
  | SCall r => Nat.leb (rks (code r)) (look 0 code_rank_table r)
  | SIfLa _ b | SWhileLa _ b | SDoLa _ b => shallows b
  | SWhilePredict _ b t | SDoPredict _ b t => shallows b && shallows t
  | SSwitchLa bs => forallb (fun x => shallows (snd x)) bs
  | SPredict _ bs => forallb shallows bs
  end.

Definition shallow : list stmt -> bool :=
  fix shallows (l : list stmt) : bool :=
    match l with [] => true | s :: l' => Nat.leb (rks (s :: l')) BC && shallow1 s && shallows l' end.

Lemma code_shallow_checked : forallb (fun r => shallow (code r)) all_rules = true.
Proof. vm_compute. reflexivity. Qed.

Lemma code_shallow r : shallow (code r) = true.
Proof. revert r. apply all_rules_forall. exact code_shallow_checked. Qed.
