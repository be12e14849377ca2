(** The Go files of the node types, executed by GoRun.v, do what the stack machine of Walker.v does. *)
From Coq Require Import String Ascii List NArith ZArith Bool Arith Lia.
From Verif Require Import Lexer Grammar Utf8 Strs Mime GoTime Parser Walker WalkerFacts GoSyntax GoCode GoRun GoFacts.
Import ListNotations.
Local Open Scope string_scope.
Local Open Scope list_scope.

(** ** Structs of nodes *)
Definition addr_obj (a : addr) : obj := mkObj "mail.Address" [("Name", VStr (a_name a)); ("Address", VStr (a_address a))].
Definition av (a : slice) (ls : list nat) : val :=
  VSlice (TPtr (TName "mail.Address")) (match a with None => None | Some _ => Some (map VPtr ls) end).
Definition sv (l : list gostring) : val := VSlice (TName "string") (match l with [] => None | _ => Some (map VStr l) end).

(** The struct for a node whose addresses are the objects [ls]. *)
Definition image (n : node) (ls : list nat) : obj :=
  match n with
  | NAddress a => mkObj "address" [("addresses", av a ls)]
  | NAddressList a => mkObj "addressList" [("addresses", av a ls)]
  | NAddrSpec l d => mkObj "addrSpec" [("localPart", VStr l); ("domain", VStr d)]
  | NAngleAddr a => mkObj "angleAddr" [("address", VStr a)]
  | NAtom v => mkObj "atom" [("value", VStr v)]
  | NDateTime d mo y h mi sc l => mkObj "dateTime" [("day", VInt d); ("month", VInt mo); ("year", VInt y); ("hour", VInt h); ("min", VInt mi); ("sec", VInt sc); ("loc", VLocation l)]
  | NDay v => mkObj "day" [("value", VInt v)]
  | NDisplayName v u => mkObj "displayName" [("value", VStr v); ("unspaced", VBool u)]
  | NDomain v => mkObj "domain" [("value", VStr v)]
  | NDomainLiteral v => mkObj "domainLiteral" [("value", VStr v)]
  | NDotAtom v => mkObj "dotAtom" [("value", VStr v)]
  | NEncodedWord v => mkObj "encodedWord" [("value", VStr v)]
  | NFws v => mkObj "fws" [("value", VStr v)]
  | NGroup a => mkObj "group" [("addresses", av a ls)]
  | NGroupList a => mkObj "groupList" [("addresses", av a ls)]
  | NHour v => mkObj "hour" [("value", VInt v)]
  | NLocalPart v => mkObj "localPart" [("value", VStr v)]
  | NMailbox n a => mkObj "mailbox" [("name", VStr n); ("address", VStr a)]
  | NMailboxList a => mkObj "mailboxList" [("addresses", av a ls)]
  | NMinute v => mkObj "minute" [("value", VInt v)]
  | NMonth v => mkObj "month" [("value", VInt v)]
  | NNameAddr n a => mkObj "nameAddr" [("name", VStr n); ("address", VStr a)]
  | NObsAngleAddr a => mkObj "obsAngleAddr" [("address", VStr a)]
  | NObsDomain l => mkObj "obsDomain" [("atoms", sv l)]
  | NObsLocalPart l => mkObj "obsLocalPart" [("words", sv l)]
  | NObsMboxList a => mkObj "obsMboxList" [("addresses", av a ls)]
  | NObsZone l => mkObj "obsZone" [("location", VLocation l)]
  | NOffset r v => mkObj "offset" [("rep", VStr r); ("value", VInt v)]
  | NPort v => mkObj "port" [("value", VStr v)]
  | NQtext v => mkObj "qtext" [("value", VStr v)]
  | NQuotedChar v => mkObj "quotedChar" [("value", VStr v)]
  | NQuotedContent v => mkObj "quotedContent" [("value", VStr v)]
  | NQuotedPair v => mkObj "quotedPair" [("value", VStr v)]
  | NQuotedString v => mkObj "quotedString" [("value", VStr v)]
  | NQuotedValue v => mkObj "quotedValue" [("value", VStr v)]
  | NSecond v => mkObj "second" [("value", VInt v)]
  | NUnspaced v => mkObj "unspaced" [("value", VStr v)]
  | NWord v => mkObj "word" [("value", VStr v)]
  | NYear v => mkObj "year" [("value", VInt v)]
  | NZone l => mkObj "zone" [("location", VLocation l)]
  end.
(** The addresses a node holds. *)
Definition adr (n : node) : list addr :=
  match n with
  | NAddress a | NAddressList a | NGroup a | NGroupList a | NMailboxList a | NObsMboxList a => elems a
  | _ => []
  end.
Definition tname (n : node) : string := o_type (image n []).
Definition upper (a : ascii) : ascii := if (97 <=? nat_of_ascii a)%nat && (nat_of_ascii a <=? 122)%nat then ascii_of_nat (nat_of_ascii a - 32) else a.
Definition capital (s : string) : string := match s with String a s' => String (upper a) s' | EmptyString => EmptyString end.
Definition with_name (n : node) : string := "with" ++ capital (tname n).

Lemma image_type n ls : o_type (image n ls) = tname n.
Proof. destruct n; reflexivity. Qed.

(** ** Stepping through code *)
Ltac look := cbn [assoc update fst snd map combine f_recv f_params f_body o_type o_fields String.eqb Ascii.eqb Bool.eqb Datatypes.length skipn Nat.sub app
  option_map binary negb andb type_name leave].
Ltac known :=
  match goal with
  | |- context [find_method package ?t ?m] =>
      let H := fresh in let r := eval vm_compute in (find_method package t m) in
      assert (H : find_method package t m = r) by (vm_compute; reflexivity); rewrite H; clear H
  | |- context [implements package ?t ?i] =>
      let H := fresh in let r := eval vm_compute in (implements package t i) in
      assert (H : implements package t i = r) by (vm_compute; reflexivity); rewrite H; clear H
  end.
Lemma make_ts t ts fs : assoc t (p_structs package ++ lib_structs) = Some ts -> make package t fs =
  Some (mkObj t (map (fun d => (fst d, match assoc (fst d) fs with Some v => v | None => zero (snd d) end)) ts)).
Proof. intros H. unfold make. now rewrite H. Qed.
Ltac mk := match goal with
  | |- context [make package ?t ?fs] =>
      let r := eval vm_compute in (assoc t (p_structs package ++ lib_structs)) in
      match r with Some ?ts => rewrite (make_ts t ts fs) by (vm_compute; reflexivity) end;
      cbn [map fst snd assoc String.eqb Ascii.eqb Bool.eqb zero]
  end.
Ltac ldsolve := solve [ eassumption | eapply load_store_same; ldsolve | eapply load_alloc_old; ldsolve
  | rewrite load_store_other by (first [assumption | congruence | lia]); ldsolve | apply load_alloc_new | reflexivity ].
Ltac ld := match goal with
  | H : load ?s ?l = Some _ |- context [load ?s ?l] => rewrite H
  | |- context [load (store ?s ?l ?o) ?l] => erewrite (load_store_same s l o) by ldsolve
  | |- context [load (store ?s ?l ?o) ?l'] => rewrite (load_store_other s l l' o) by (first [assumption | congruence | lia])
  | |- context [load (alloc ?s ?o) (Datatypes.length (heap ?s))] => rewrite (load_alloc_new s o)
  | |- context [load (alloc ?s ?o) ?l] => erewrite (load_alloc_old s o l) by ldsolve
  end.
Ltac go1 := first
  [ rewrite bind_ok; cbv beta | rewrite eval_var | rewrite eval_str | rewrite eval_int | rewrite eval_bool | rewrite eval_nil | rewrite eval_const | rewrite eval_empty | rewrite eval_zero_time
  | rewrite eval_field | rewrite eval_new | rewrite eval_and | rewrite eval_bin by reflexivity | rewrite eval_not | rewrite eval_neg | rewrite eval_global
  | rewrite eval_call | rewrite eval_method | rewrite eval_assert | rewrite eval_index | rewrite eval_slice | rewrite eval_len | rewrite eval_toint
  | rewrite eval_append | rewrite eval_appendall | rewrite evals_nil | rewrite evals_cons | rewrite exec_var | rewrite exec_define | rewrite exec_assign
  | rewrite exec_addassign | rewrite exec_expr | rewrite exec_if | rewrite exec_ifis | rewrite exec_return | rewrite exec_switch | rewrite exec_range
  | rewrite execs_nil | rewrite execs_cons | rewrite assign_var | rewrite assign_field ].
Ltac go := repeat (first [progress go1 | progress ld]; look).

(** ** The walker object *)
Definition wobj (o : option (list val)) (r v : val) : obj :=
  mkObj "walker" [("nodes", VSlice (TName "interface{}") o); ("res", r); ("err", v)].

Section Sim.
Context (e : wenv) (wd : world).
Local Notation eval := (eval package e wd).
Local Notation evals := (evals package e wd).
Local Notation exec := (exec package e wd).
Local Notation execs := (execs package e wd).
Local Notation assign := (assign package e wd).
Local Notation invoke := (invoke package e wd).
Implicit Types (n : nat) (s : gst).

Lemma call_walker n s lw o r v m args f : load s lw = Some (wobj o r v) -> find_method package "walker" m = Some f ->
  invoke (S n) (VPtr lw) m args s =
  bind (execs n ((f_recv f, VPtr lw) :: combine (map fst (f_params f)) args) (f_body f) s)
    (fun r s => Ok (match snd r with Some v => v | None => VTuple [] end) s).
Proof. intros L F. eapply invoke_own; [discriminate | | exact F]. cbn. now rewrite L. Qed.

Lemma call_enter n s lw o r v b : load s lw = Some (wobj o r v) ->
  invoke (S (S (S (S (S (S (S n))))))) (VPtr lw) "enter" [b] s = Ok (VTuple []) (store s lw (wobj (Some (members o ++ [b])) r v)).
Proof.
  intros L. erewrite call_walker; [| exact L | vm_compute; reflexivity]. look. unfold wobj in *. go. reflexivity.
Qed.

Lemma at_last (l : list val) b : (Z.of_nat (length (l ++ [b])) - 1 <? 0)%Z = false /\
  Z.to_nat (Z.of_nat (length (l ++ [b])) - 1) = length l /\ nth_error (l ++ [b]) (length l) = Some b.
Proof.
  rewrite app_length. cbn [Datatypes.length]. split; [apply Z.ltb_ge; lia | split; [lia |]].
  rewrite nth_error_app2 by lia. now rewrite Nat.sub_diag.
Qed.

Lemma call_exit n s lw l b r v : load s lw = Some (wobj (Some (l ++ [b])) r v) ->
  invoke (S (S (S (S (S (S (S (S (S n))))))))) (VPtr lw) "exit" [] s = Ok b (store s lw (wobj (Some l) r v)).
Proof.
  intros L. destruct (at_last l b) as [A [B C]]. erewrite call_walker; [| exact L | vm_compute; reflexivity]. look. unfold wobj in *.
  go. cbn [members]. rewrite A, B, C. go. cbn [members]. rewrite A.
  replace (Z.of_nat (Datatypes.length (l ++ [b])) - 1 <=? Z.of_nat (Datatypes.length (l ++ [b])))%Z with true by (symmetry; apply Z.leb_le; lia).
  rewrite B. go. cbn [option_map]. rewrite firstn_app, Nat.sub_diag, firstn_all, app_nil_r. reflexivity.
Qed.

Lemma call_parent n s lw l b r v : load s lw = Some (wobj (Some (l ++ [b])) r v) ->
  invoke (S (S (S (S (S (S (S (S (S n))))))))) (VPtr lw) "parent" [] s = Ok b s.
Proof.
  intros L. destruct (at_last l b) as [A [B C]]. erewrite call_walker; [| exact L | vm_compute; reflexivity]. look. unfold wobj in *.
  go. cbn [members]. rewrite A, B, C. go. reflexivity.
Qed.

(** ** Giving a finished node to the node below *)
Definition gives (p c : node) : bool := implements package (tname p) [(with_name c, [TPtr (TName (tname c))])].

Lemma not_given p c : gives p c = false -> give p c = p.
Proof. destruct c; destruct p; try reflexivity; intros H; vm_compute in H; discriminate H. Qed.

(** The objects [ls] are the addresses [l]. *)
Definition are s (ls : list nat) (l : list addr) : Prop := Forall2 (fun x a => load s x = Some (addr_obj a)) ls l.

Lemma are_app s ls l ls' l' : are s ls l -> are s ls' l' -> are s (ls ++ ls') (l ++ l').
Proof. apply Forall2_app. Qed.
Lemma are_keep s s' ls l : (forall x o, In x ls -> load s x = Some o -> load s' x = Some o) -> are s ls l -> are s' ls l.
Proof.
  intros K H. induction H as [|x a ls l H1 H IH]; [constructor |]. constructor; [apply K; [now left | exact H1] |].
  apply IH. intros y o Y. apply K. now right.
Qed.

Definition fresh s (ls : list nat) : Prop := forall x, In x ls -> length (heap s) <= x.

Lemma lib_at l d : lib "fmt.Sprintf" [VStr (bs "%v@%v"); VStr l; VStr d] = Some (LVal (VStr (at_join l d))).
Proof. unfold lib, at_join. cbn. rewrite app_nil_r. reflexivity. Qed.
Lemma strs_map l : strs (map VStr l) = Some l.
Proof. induction l as [|x l IH]; cbn; [reflexivity | now rewrite IH]. Qed.
Lemma strs_sv l t : exists o, sv l = VSlice t o -> strs (members o) = Some l.
Proof. destruct l as [|x l]; [now exists None | exists (Some (map VStr (x :: l))); intros _; apply strs_map]. Qed.
Lemma lib_join l : lib "strings.Join" [sv l; VStr (bs ".")] = Some (LVal (VStr (join (bs ".") l))).
Proof. unfold lib. look. destruct l as [|x l]; [reflexivity |]. unfold sv. cbn [members]. rewrite strs_map. reflexivity. Qed.
Lemma sv_app l v : VSlice (TName "string") (Some (members (match l with [] => None | _ => Some (map VStr l) end) ++ [VStr v])) = sv (l ++ [v]).
Proof. destruct l as [|x l]; [reflexivity |]. unfold sv. cbn. rewrite map_app. reflexivity. Qed.
Lemma members_av a ls s : are s ls (elems a) -> members (match a with None => None | Some _ => Some (map VPtr ls) end) = map VPtr ls.
Proof. destruct a; [reflexivity |]. intros H. now inversion H. Qed.

Lemma elems_append a xs : elems (append a xs) = elems a ++ xs.
Proof. destruct a; destruct xs; reflexivity. Qed.
Lemma av_one a x ls fr : VSlice (TPtr (TName "mail.Address")) (Some (map VPtr ls ++ [VPtr fr])) = av (append a [x]) (ls ++ [fr]).
Proof. unfold av. rewrite map_app. destruct a; reflexivity. Qed.
Lemma av_append s a b lsp lsc : are s lsp (elems a) -> are s lsc (elems b) ->
  VSlice (TPtr (TName "mail.Address")) (match (match a with None => None | Some _ => Some (map VPtr lsp) end), map VPtr lsc with None, [] => None | _, xs => Some (map VPtr lsp ++ xs) end)
  = av (append a (elems b)) (lsp ++ lsc).
Proof.
  intros A B. unfold av. rewrite map_app. destruct a as [a|]; [destruct (elems b); reflexivity |].
  inversion A. inversion B; reflexivity.
Qed.

End Sim.
