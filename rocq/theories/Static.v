(** Facts about parse trees obtained from the grammar by generic, checked analyses. *)
From Coq Require Import List NArith ZArith Bool Arith Lia.
From Verif Require Import Lexer Grammar Utf8 Strs Parser Walker Spec ParserFacts WalkerFacts.
Import ListNotations.

(** ** Every node of a derived tree is itself derived *)

Definition derived_node (r : rule) (ch : list tree) : Prop := derives (body r) ch.

Lemma derives_nodes g f : derives g f -> Forall (all_nodes derived_node) f.
Proof.
  induction 1; try assumption; try (apply Forall_app; auto; fail).
  - constructor; [exact I | constructor].
  - constructor.
  - constructor; [|constructor]. apply all_nodes_node. split; auto.
  - constructor.
Qed.

(** ** Rules that can occur in a tree *)

Fixpoint nts (P : rule -> bool) (g : gexp) : bool :=
  match g with
  | Cls _ | Eps => true
  | Nt r => P r
  | Seq a b | Alt a b => nts P a && nts P b
  | Star a => nts P a
  end.

Definition closed (P : rule -> bool) : bool :=
  forallb (fun r => implb (P r) (nts P (body r))) all_rules.

Lemma derives_rules P g f :
  closed P = true -> derives g f -> nts P g = true ->
  Forall (all_nodes (fun r _ => P r = true)) f.
Proof.
  intros HP. induction 1; cbn [nts]; rewrite ?andb_true_iff; intros Hg;
    try (apply Forall_app; split); try (constructor; fail); try tauto.
  - constructor; [exact I | constructor].
  - constructor; [|constructor]. apply all_nodes_node. split; [exact Hg|].
    apply IHderives. pose proof (all_rules_forall _ HP r) as H1. cbn in H1. rewrite Hg in H1.
    exact H1.
Qed.

(** Rules reachable from a list of rules. *)
Fixpoint nt_list (g : gexp) : list rule :=
  match g with
  | Cls _ | Eps => []
  | Nt r => [r]
  | Seq a b | Alt a b => nt_list a ++ nt_list b
  | Star a => nt_list a
  end.

Definition mem_rule (r : rule) (l : list nat) : bool := existsb (Nat.eqb (rule_ix r)) l.

Definition reach_step (l : list nat) : list nat :=
  nodup Nat.eq_dec (l ++ flat_map (fun r => if mem_rule r l then map rule_ix (nt_list (body r)) else [])
                         all_rules).

Definition reach (r : rule) : list nat := iter 20 reach_step [rule_ix r].

(** ** Star as a list *)

Lemma derives_star a f :
  derives (Star a) f <-> exists fs, f = concat fs /\ Forall (derives a) fs.
Proof.
  split.
  - remember (Star a) as g eqn:Eg. induction 1; try discriminate; injection Eg as ->.
    + exists []. split; [reflexivity | constructor].
    + destruct (IHderives2 eq_refl) as [fs [-> Hfs]]. exists (f1 :: fs). split; [reflexivity|].
      constructor; auto.
  - intros [fs [-> Hfs]]. induction Hfs; cbn; [constructor | now constructor].
Qed.

Lemma derives_nt r f : derives (Nt r) f <-> exists ch, f = [Node r ch] /\ derives (body r) ch.
Proof.
  split.
  - inversion 1; subst. eauto.
  - intros [ch [-> H]]. now constructor.
Qed.

Lemma derives_cls ts f : derives (Cls ts) f <-> exists t, f = [Leaf t] /\ In (tt t) ts.
Proof.
  split.
  - inversion 1; subst. eauto.
  - intros [t [-> H]]. now constructor.
Qed.

Lemma derives_seq a b f :
  derives (Seq a b) f <-> exists f1 f2, f = f1 ++ f2 /\ derives a f1 /\ derives b f2.
Proof.
  split.
  - inversion 1; subst. eauto.
  - intros [f1 [f2 [-> [H1 H2]]]]. now constructor.
Qed.

Lemma derives_alt a b f : derives (Alt a b) f <-> derives a f \/ derives b f.
Proof.
  split.
  - inversion 1; subst; auto.
  - intros [H|H]; [now apply D_altl | now apply D_altr].
Qed.

Lemma derives_eps f : derives Eps f <-> f = [].
Proof.
  split; [inversion 1; auto | intros ->; constructor].
Qed.

Lemma derives_opt a f : derives (Opt a) f <-> derives a f \/ f = [].
Proof. unfold Opt. rewrite derives_alt, derives_eps. tauto. Qed.

Lemma derives_plus a f :
  derives (Plus a) f <-> exists f1 fs, f = f1 ++ concat fs /\ derives a f1 /\ Forall (derives a) fs.
Proof.
  unfold Plus. rewrite derives_seq. split.
  - intros [f1 [f2 [-> [H1 H2]]]]. apply derives_star in H2 as [fs [-> Hfs]]. eauto 6.
  - intros [f1 [fs [-> [H1 H2]]]]. exists f1, (concat fs). repeat split; auto.
    apply derives_star. eauto.
Qed.

(** Break a hypothesis [derives g f] with [g] a concrete expression into its parts. *)
Ltac dinv H :=
  lazymatch type of H with
  | derives (Cls _) _ =>
      apply derives_cls in H; let t := fresh "t" in destruct H as [t [-> H]]
  | derives Eps _ => apply derives_eps in H; subst
  | derives (Seq _ _) _ =>
      apply derives_seq in H;
      let f1 := fresh "f" in let f2 := fresh "f" in let H1 := fresh "H" in let H2 := fresh "H" in
      destruct H as [f1 [f2 [-> [H1 H2]]]]; dinv H1; dinv H2
  | derives (Alt _ _) _ => apply derives_alt in H; destruct H as [H|H]; dinv H
  | derives (Opt _) _ => unfold Opt in H; dinv H
  | derives (Tok _) _ => unfold Tok in H; dinv H
  | derives (Nt _) _ =>
      apply derives_nt in H; let ch := fresh "ch" in destruct H as [ch [-> H]]
  | derives (Star _) _ => idtac
  | derives (Plus _) _ => unfold Plus in H; dinv H
  | derives (alts _) _ => cbn [alts] in H; dinv H
  | derives (seqs _) _ => cbn [seqs] in H; dinv H
  | derives (body ?r) _ =>
      let b := eval cbv [body] in (body r) in
      let b := eval red in b in
      change (body r) with b in H; dinv H
  | _ => idtac
  end.

(** ** Tokens that come from the lexer *)

Definition tok_ok (t : tok) : Prop :=
  t = eof_tok \/ tt t = T_Invalid \/ lex_rune (tr t) = Some (tt t).

Lemma lex_ok m rs : Forall tok_ok (lex m rs).
Proof.
  unfold lex. apply Forall_app. split.
  - induction rs as [|r rs IH]; cbn; [constructor|]. apply Forall_app. split; [|exact IH].
    unfold lex1. destruct (lex_rune r) as [t|] eqn:E.
    + constructor; [|constructor]. right. right. exact E.
    + destruct m; [constructor|]. constructor; [|constructor]. right. left. reflexivity.
  - constructor; [left; reflexivity | constructor].
Qed.

Lemma tok_ok_lex t : tok_ok t -> tt t <> T_EOF -> tt t <> T_Invalid -> lex_rune (tr t) = Some (tt t).
Proof.
  intros [->|[H|H]] H1 H2; [exfalso; apply H1; reflexivity | contradiction | exact H].
Qed.

Definition toks_ok (f : list tree) : Prop := Forall tok_ok (yields f).

Lemma toks_ok_app f1 f2 : toks_ok (f1 ++ f2) <-> toks_ok f1 /\ toks_ok f2.
Proof. unfold toks_ok. rewrite yields_app. apply Forall_app. Qed.

Lemma toks_ok_node r ch : toks_ok [Node r ch] <-> toks_ok ch.
Proof. unfold toks_ok. now rewrite yields_node. Qed.

Lemma toks_ok_leaf t : toks_ok [Leaf t] <-> tok_ok t.
Proof.
  unfold toks_ok. cbn. split.
  - intros H. now inversion H.
  - intros H. constructor; [exact H | constructor].
Qed.

(** All token leaves below a node. *)
Lemma toks_ok_cons t f : toks_ok (t :: f) <-> toks_ok [t] /\ toks_ok f.
Proof. apply (toks_ok_app [t] f). Qed.

Lemma toks_ok_nodes f : toks_ok f -> Forall (all_nodes (fun _ ch => toks_ok ch)) f.
Proof.
  intros H. apply Forall_forall. intros t Ht.
  assert (H1 : toks_ok [t]).
  { unfold toks_ok in *. rewrite Forall_forall in *. intros k Hk. apply H.
    unfold yields in *. apply in_flat_map. cbn in Hk. rewrite app_nil_r in Hk. eauto. }
  clear H Ht f. induction t as [t|r ch IH] using tree_ind'; [exact I|].
  apply all_nodes_node. apply toks_ok_node in H1. split; [exact H1|].
  clear r. induction ch as [|c ch IHch]; constructor; inversion IH; subst;
    apply toks_ok_cons in H1 as [Ha Hb]; auto.
Qed.

(** A type determines the characters (only the types needed later). *)
Ltac lex_cases :=
  unfold lex_rune;
  repeat match goal with
         | |- context [if ?b then _ else _] =>
             let E := fresh "E" in
             destruct b eqn:E;
             [intros Hlex; first [exact E | reflexivity | exfalso; revert Hlex; clear; vm_compute; discriminate]|]
         end; try discriminate.

Lemma lex_digit r : lex_rune r = Some T_Digit -> (in_range 48 57 r = true)%N.
Proof. lex_cases. Qed.

Lemma digit_tok t : tok_ok t -> tt t = T_Digit -> exists d, (48 <= d <= 57)%N /\ tok_text t = [d].
Proof.
  intros H E. assert (Hl : lex_rune (tr t) = Some T_Digit).
  { rewrite <- E. apply tok_ok_lex; [exact H | |]; rewrite E; discriminate. }
  apply lex_digit in Hl. unfold in_range in Hl. apply andb_true_iff in Hl as [H1 H2].
  apply N.leb_le in H1, H2. exists (tr t). split; [lia|].
  unfold tok_text. rewrite E. cbn. unfold encode1.
  destruct (N.ltb_spec (tr t) 128); [reflexivity | lia].
Qed.
