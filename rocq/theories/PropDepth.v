(** C74: how deep the rule functions and the walk call themselves. *)
From Coq Require Import String List NArith ZArith Bool Arith Lia.
From Verif Require Import Lexer Grammar Utf8 Utf8Facts Strs Mime GoTime Parser Spec ParserFacts Static LexFacts Walker Api Total PropApi GenRun GenLex GenRecover AddrText Cfws PropLead PropGen PropInv PropRecover.
Import ListNotations.

(** ** Specification *)
(** The nesting of a tree: while a rule function (or the walk) is at a node it is inside the calls for all nodes
    above it. *)
(* /repo: parser/rfc5322_parser.go: a context for each call of a rule function, whose parent is that of the calling function *)
Fixpoint height (t : tree) : nat :=
  match t with
  | Leaf _ => 0
  | Node _ ch => S ((fix most (f : list tree) : nat := match f with [] => 0 | t :: f' => Nat.max (height t) (most f') end) ch)
  end.
(* /repo: specification *)
Definition parens (input : list byte) : nat := length (filter (fun c => N.eqb c 40) (decode input)).

(** ** Proofs *)
Fixpoint most (f : list tree) : nat := match f with [] => 0 | t :: f' => Nat.max (height t) (most f') end.
Lemma height_node r ch : height (Node r ch) = S (most ch).
Proof. reflexivity. Qed.
Lemma most_app f g : most (f ++ g) = Nat.max (most f) (most g).
Proof. induction f as [|t f IH]; [reflexivity |]. cbn [app most]. rewrite IH. lia. Qed.

Definition is_open (t : tok) : bool := N.eqb (tt t) T_LParens.
Definition opens (w : word) : nat := length (filter is_open w).
Lemma opens_app u v : opens (u ++ v) = opens u + opens v.
Proof. unfold opens. rewrite filter_app, app_length. reflexivity. Qed.

(** The height of each rule if it has no comments: a table, computed by iteration, then checked.  A comment counts two
    less than its height, which its own parenthesis makes up for. *)
Definition lv_t (tbl : list nat) := fix lv (g : gexp) : nat :=
  match g with
  | Cls _ | Eps => 0
  | Nt r => look 0 tbl r
  | Seq a b | Alt a b => Nat.max (lv a) (lv b)
  | Star a => lv a
  end.
Definition is_comment (r : rule) : bool := match r with R_comment => true | _ => false end.
Definition lv_table : list nat := Eval vm_compute in
  iter 67 (fun t => map (fun r => if is_comment r then 4 else S (lv_t t (body r))) all_rules) (map (fun _ => 0) all_rules).
Definition lv (g : gexp) : nat := lv_t lv_table g.

Definition comment_tail : gexp := match body R_comment with Seq _ b => b | _ => Eps end.
Lemma comment_eq : body R_comment = Seq (Tok T_LParens) comment_tail.
Proof. reflexivity. Qed.
Lemma levels r : is_comment r = false -> S (lv (body r)) <= lv (Nt r).
Proof.
  assert (H : implb (negb (is_comment r)) (Nat.leb (S (lv (body r))) (lv (Nt r))) = true) by (revert r; apply all_rules_forall; vm_compute; reflexivity).
  intros E. rewrite E in H. apply Nat.leb_le. exact H.
Qed.

(** [short t]: what is to be shown of a node. *)
Definition short (t : tree) : Prop := match t with Leaf _ => True | Node r ch => derives (body r) ch -> height (Node r ch) <= lv (Nt r) + 2 * opens (yields ch) end.
Lemma forest g f : derives g f -> Forall short f -> most f <= lv g + 2 * opens (yields f).
Proof.
  induction 1 as [ts t Ht | | r f H IH | a b f1 f2 H1 IH1 H2 IH2 | a b f H IH | a b f H IH | a | a f1 f2 H1 IH1 H2 IH2]; intros F.
  - cbn. lia.
  - cbn. lia.
  - inversion F as [|x l Hx Hl]; subst. specialize (Hx H). cbn [most]. rewrite yields_node. lia.
  - apply Forall_app in F as [F1 F2]. specialize (IH1 F1). specialize (IH2 F2). rewrite most_app, yields_app, opens_app. unfold lv in *. cbn [lv_t]. lia.
  - specialize (IH F). unfold lv in *. cbn [lv_t]. lia.
  - specialize (IH F). unfold lv in *. cbn [lv_t]. lia.
  - cbn. lia.
  - apply Forall_app in F as [F1 F2]. specialize (IH1 F1). specialize (IH2 F2). rewrite most_app, yields_app, opens_app. unfold lv in *. cbn [lv_t] in *. lia.
Qed.
Lemma most_in t f : In t f -> height t <= most f.
Proof. induction f as [|x f IH]; [contradiction |]. cbn [most]. intros [->|H]; [lia | specialize (IH H); lia]. Qed.
Lemma all_short : forall n t, height t <= n -> short t.
Proof.
  induction n as [|n IH]; intros [x|r ch] Hn; try exact Logic.I; [rewrite height_node in Hn; lia |]. rewrite height_node in Hn. cbn [short]. intros D.
  assert (F : Forall short ch) by (apply Forall_forall; intros t Ht; apply IH; pose proof (most_in t ch Ht); lia).
  rewrite height_node. destruct (is_comment r) eqn:E.
  - destruct r; try discriminate E. rewrite comment_eq in D. inversion D as [| | |a b f1 f2 D1 D2| | | |]; subst. inversion D1 as [ts t Ht| | | | | | |]; subst.
    cbn [app] in F |- *. inversion F as [|y l _ F2]; subst. pose proof (forest _ _ D2 F2) as K.
    assert (O : opens (yields (Leaf t :: f2)) = S (opens (yields f2))).
    { unfold opens. cbn [yields flat_map yield app filter]. destruct Ht as [Ht|[]]. unfold is_open at 1. rewrite <- Ht, N.eqb_refl. reflexivity. }
    cbn [most]. rewrite O. change (lv comment_tail) with 5 in K. change (lv (Nt R_comment)) with 4. change (height (Leaf t)) with 0. lia.
  - pose proof (forest _ _ D F). pose proof (levels r E). lia.
Qed.

Lemma lex_open c : lex_rune c = Some T_LParens -> c = 40%N.
Proof.
  unfold lex_rune;
  repeat match goal with
         | |- context [if ?b then _ else _] =>
             let E := fresh "E" in destruct b eqn:E;
             [ intros H; first [discriminate H | apply N.eqb_eq in E; exact E] |]
         end; discriminate.
Qed.
Lemma opens_lex m rs : opens (lex m rs) <= length (filter (fun c => N.eqb c 40) rs).
Proof.
  unfold lex. rewrite opens_app. change (opens [eof_tok]) with 0. rewrite Nat.add_0_r. induction rs as [|c rs IH]; [cbn; lia |].
  cbn [flat_map]. rewrite opens_app. cbn [filter]. assert (H : opens (lex1 m c) <= if N.eqb c 40 then 1 else 0).
  { unfold lex1. destruct (lex_rune c) as [t|] eqn:E; [| destruct m; cbn; lia]. unfold opens, is_open. cbn [filter Lexer.tt].
    destruct (N.eqb_spec t T_LParens) as [->|]; [| cbn; lia]. apply lex_open in E as ->. cbn. lia. }
  destruct (N.eqb c 40); cbn [length]; lia.
Qed.
Lemma tree_depth e input r t : selected r (tokens e input) t -> height t <= lv (Nt r) + 2 * parens input.
Proof.
  intros P. apply sel_sound in P as [D Y]. rewrite app_nil_r in Y. pose proof (opens_lex (bad_rune e) (decode input)) as O.
  change (lex (bad_rune e) (decode input)) with (tokens e input) in O. rewrite Y in O. inversion D as [| |r' f D'| | | | |]; subst.
  pose proof (all_short _ _ (le_n (height (Node r f))) D') as H. unfold parens. rewrite yields_node in O. lia.
Qed.

(** ** Theorems *)
(** The trees that the generated parser builds of accepted inputs are not deep: 22 levels for addresses, 7 for dates,
    and two for each opening parenthesis. *)
Theorem C74_address_depth e input w : scans (bad_rune e) (decode input) w -> exists n0, forall n, n0 <= n -> forall t c m,
  may_end (rstart n R_addressList w) (RDone [t] c m) -> failed m = false -> height t <= 22 + 2 * parens input.
Proof.
  intros Hw. apply C49_token_stream in Hw as ->.
  destruct (C65_every_run_ends R_addressList (tokens e input) (or_introl eq_refl) (lex_stream _ _)) as (n0 & H). exists n0. intros n Hn t c m Ho Fm.
  destruct (proj2 (H n Hn) _ Ho) as (f & c' & m' & K & _ & V). injection K as <- <- <-. destruct (V Fm) as (t' & K & _ & S'). injection K as ->.
  exact (tree_depth e input R_addressList t' S').
Qed.
Theorem C74_date_depth e input w : scans (bad_rune e) (decode input) w -> exists n0, forall n, n0 <= n -> forall t c m,
  may_end (rstart n R_dateTime w) (RDone [t] c m) -> failed m = false -> height t <= 7 + 2 * parens input.
Proof.
  intros Hw. apply C49_token_stream in Hw as ->.
  destruct (C65_every_run_ends R_dateTime (tokens e input) (or_intror eq_refl) (lex_stream _ _)) as (n0 & H). exists n0. intros n Hn t c m Ho Fm.
  destruct (proj2 (H n Hn) _ Ho) as (f & c' & m' & K & _ & V). injection K as <- <- <-. destruct (V Fm) as (t' & K & _ & S'). injection K as ->.
  exact (tree_depth e input R_dateTime t' S').
Qed.


(** ** The depth is not bounded *)
Definition delta (t : tok) : Z := if N.eqb (tt t) T_LParens then 1%Z else if N.eqb (tt t) T_RParens then (-1)%Z else 0%Z.
Fixpoint level (w : word) : Z := match w with [] => 0%Z | t :: w' => (delta t + level w')%Z end.
Fixpoint peak (w : word) : Z := match w with [] => 0%Z | t :: w' => Z.max 0 (delta t + peak w')%Z end.
Lemma level_app u v : level (u ++ v) = (level u + level v)%Z.
Proof. induction u as [|t u IH]; cbn [app level]; lia. Qed.
Lemma peak_app u v : peak (u ++ v) = Z.max (peak u) (level u + peak v).
Proof.
  induction u as [|t u IH]; cbn [app level peak].
  - assert (0 <= peak v)%Z by (destruct v; cbn [peak]; lia). lia.
  - rewrite IH. assert (0 <= peak u)%Z by (destruct u; cbn [peak]; lia). lia.
Qed.
Lemma peak_pos w : (0 <= peak w)%Z.
Proof. destruct w; cbn [peak]; lia. Qed.

(** Tokens within which parentheses need not be balanced. *)
Definition marks : list ttype := [T_Backslash; T_DQuote; T_LBracket; T_Equal].
Definition unmarked (w : word) : Prop := Forall (fun t => ~ In (tt t) marks) w.
(** Every text of [g] has such a token. *)
Definition marked_t (tbl : list bool) := fix mk (g : gexp) : bool :=
  match g with
  | Cls ts => forallb (fun t => memb t marks) ts
  | Eps | Star _ => false
  | Nt r => look false tbl r
  | Seq a b => mk a || mk b
  | Alt a b => mk a && mk b
  end.
Definition mk_table : list bool := Eval vm_compute in iter 67 (fun t => map (fun r => marked_t t (body r)) all_rules) (map (fun _ => false) all_rules).
Definition mk (g : gexp) : bool := marked_t mk_table g.
Lemma mk_body r : mk (Nt r) = true -> mk (body r) = true.
Proof.
  assert (H : implb (mk (Nt r)) (mk (body r)) = true) by (revert r; apply all_rules_forall; vm_compute; reflexivity).
  intros E. rewrite E in H. exact H.
Qed.
Lemma mk_sound g f : derives g f -> mk g = true -> ~ unmarked (yields f).
Proof.
  unfold mk. induction 1 as [ts t Ht | | r f H IH | a b f1 f2 H1 IH1 H2 IH2 | a b f H IH | a b f H IH | a | a f1 f2 H1 IH1 H2 IH2]; intros E U.
  - cbn [marked_t] in E. rewrite forallb_forall in E. specialize (E _ Ht). apply memb_In in E. inversion U; subst. contradiction.
  - discriminate.
  - rewrite yields_node in U. apply IH; [apply mk_body, E | exact U].
  - rewrite yields_app in U. apply Forall_app in U as [U1 U2]. cbn [marked_t] in E. apply orb_true_iff in E as [E|E]; [apply IH1 in E | apply IH2 in E]; tauto.
  - cbn [marked_t] in E. apply andb_true_iff in E as [E _]. exact (IH E U).
  - cbn [marked_t] in E. apply andb_true_iff in E as [_ E]. exact (IH E U).
  - discriminate.
  - discriminate.
Qed.
(** Without one of these tokens, a text of [g] is balanced. *)
Definition no_paren (ts : list ttype) : bool := forallb (fun t => negb (N.eqb t T_LParens || N.eqb t T_RParens)) ts.
Definition even_t (tbl : list bool) := fix ev (g : gexp) : bool :=
  marked_t mk_table g ||
  match g with
  | Cls ts => no_paren ts
  | Eps => true
  | Star a => ev a
  | Nt r => is_comment r || look false tbl r
  | Seq a b | Alt a b => ev a && ev b
  end.
Definition ev_table : list bool := Eval vm_compute in iter 67 (fun t => map (fun r => even_t t (body r)) all_rules) (map (fun _ => true) all_rules).
Definition ev (g : gexp) : bool := even_t ev_table g.
Lemma ev_body r : is_comment r = false -> ev (Nt r) = true -> ev (body r) = true.
Proof.
  assert (H : implb (negb (is_comment r) && ev (Nt r)) (ev (body r)) = true) by (revert r; apply all_rules_forall; vm_compute; reflexivity).
  intros E1 E2. rewrite E1, E2 in H. exact H.
Qed.
(** Is there a comment at the top of [g]? *)
Fixpoint direct (g : gexp) : bool :=
  match g with
  | Cls _ | Eps => false
  | Star a => direct a
  | Nt r => is_comment r
  | Seq a b | Alt a b => direct a || direct b
  end.
Definition room (g : gexp) : Z := if direct g then 1%Z else 0%Z.
Definition balanced (f : list tree) (slack : Z) : Prop := level (yields f) = 0%Z /\ (2 * peak (yields f) <= Z.of_nat (most f) + slack)%Z.
Definition deep (t : tree) : Prop :=
  match t with
  | Leaf _ => True
  | Node r ch => derives (body r) ch -> ev (Nt r) = true -> unmarked (yields ch) -> balanced [Node r ch] (room (Nt r))
  end.
Lemma balanced_app f1 f2 s1 s2 s : balanced f1 s1 -> balanced f2 s2 -> (s1 <= s)%Z -> (s2 <= s)%Z -> balanced (f1 ++ f2) s.
Proof.
  unfold balanced. intros [H1 H2] [H3 H4] L1 L2. rewrite yields_app, level_app, peak_app, most_app. split; [lia|]. rewrite H1. pose proof (Nat2Z.inj_max (most f1) (most f2)). lia.
Qed.
Lemma balanced_more f s s' : balanced f s -> (s <= s')%Z -> balanced f s'.
Proof. unfold balanced. intros [H1 H2] L. split; [exact H1 | lia]. Qed.
Definition parts_even (g : gexp) : Prop :=
  match g with
  | Cls ts => no_paren ts = true | Eps => True | Star a => ev a = true | Nt r => True
  | Seq a b | Alt a b => ev a = true /\ ev b = true end.
Lemma even_parts g f : derives g f -> ev g = true -> unmarked (yields f) -> parts_even g.
Proof.
  intros D E U. assert (M : marked_t mk_table g = false) by (destruct (marked_t mk_table g) eqn:M; [exfalso; exact (mk_sound _ _ D M U) | reflexivity]).
  unfold ev in E. destruct g; cbn [even_t] in E; rewrite M in E; cbn [orb] in E; cbn [parts_even]; try (apply andb_true_iff in E; exact E); try exact E; exact Logic.I.
Qed.
Lemma room_le g : (0 <= room g <= 1)%Z.
Proof. unfold room. destruct (direct g); lia. Qed.
Lemma room_seq a b : (room a <= room (Seq a b) /\ room b <= room (Seq a b))%Z.
Proof. unfold room. cbn [direct]. destruct (direct a), (direct b); split; discriminate. Qed.
Lemma forest_deep g f : derives g f -> ev g = true -> unmarked (yields f) -> Forall deep f -> balanced f (room g).
Proof.
  induction 1 as [ts t Ht | | r f H IH | a b f1 f2 H1 IH1 H2 IH2 | a b f H IH | a b f H IH | a | a f1 f2 H1 IH1 H2 IH2]; intros E U F.
  - pose proof (even_parts _ _ (D_cls ts t Ht) E U) as C. cbn [parts_even] in C. unfold no_paren in C. rewrite forallb_forall in C. specialize (C _ Ht). apply negb_true_iff, orb_false_iff in C as [C1 C2].
    unfold balanced. cbn [yields flat_map yield app level peak most height]. unfold delta. rewrite C1, C2. split; [reflexivity | discriminate].
  - split; [reflexivity | discriminate].
  - inversion F as [|x l Hx _]; subst. apply Hx; [exact H | exact E |]. rewrite yields_node in U. exact U.
  - destruct (even_parts _ _ (D_seq a b f1 f2 H1 H2) E U) as [E1 E2]. rewrite yields_app in U. apply Forall_app in U as [U1 U2]. apply Forall_app in F as [F1 F2].
    destruct (room_seq a b). eapply balanced_app; [apply IH1; auto | apply IH2; auto | assumption | assumption].
  - destruct (even_parts _ _ (D_altl a b f H) E U) as [E1 E2]. destruct (room_seq a b). eapply balanced_more; [apply IH; auto | assumption].
  - destruct (even_parts _ _ (D_altr a b f H) E U) as [E1 E2]. destruct (room_seq a b). eapply balanced_more; [apply IH; auto | assumption].
  - split; [reflexivity|]. cbn. unfold room. destruct (direct (Star a)); discriminate.
  - pose proof (even_parts _ _ (D_star1 a f1 f2 H1 H2) E U) as E1. cbn [parts_even] in E1. rewrite yields_app in U. apply Forall_app in U as [U1 U2]. apply Forall_app in F as [F1 F2].
    change (room (Star a)) with (room a) in *. eapply balanced_app; [apply IH1; auto | apply IH2; auto | lia | lia].
Qed.
Lemma comment_split : exists x, body R_comment = Seq (Tok T_LParens) (Seq (Star (Seq (Opt (Nt R_fws)) (Nt R_ccontent))) (Seq (Opt (Nt R_fws)) x)) /\ x = Tok T_RParens.
Proof. eexists. split; reflexivity. Qed.
Lemma all_deep : forall n t, height t <= n -> deep t.
Proof.
  induction n as [|n IH]; intros [x|r ch] Hn; try exact Logic.I; [rewrite height_node in Hn; lia |]. rewrite height_node in Hn. cbn [deep]. intros D E U.
  assert (F : Forall deep ch) by (apply Forall_forall; intros t Ht; apply IH; pose proof (most_in t ch Ht); lia).
  unfold balanced. cbn [most]. rewrite Nat.max_0_r, height_node, yields_node, Nat2Z.inj_succ. destruct (is_comment r) eqn:C.
  - destruct r; try discriminate C. change (body R_comment) with (Seq (Tok T_LParens) (Seq (Star (Seq (Opt (Nt R_fws)) (Nt R_ccontent))) (Seq (Opt (Nt R_fws)) (Tok T_RParens)))) in D.
    inversion D as [| | |a b f1 f2 D1 D2| | | |]; subst. inversion D1 as [ts t Ht| | | | | | |]; subst.
    inversion D2 as [| | |a b f3 f4 D3 D4| | | |]; subst. inversion D4 as [| | |a b f5 f6 D5 D6| | | |]; subst. inversion D6 as [ts t' Ht'| | | | | | |]; subst.
    destruct Ht as [Ht|[]]. destruct Ht' as [Ht'|[]].
    cbn [app] in F, U |- *. apply Forall_inv_tail in F. inversion U as [|y l _ U2]; subst. rewrite !yields_app in U2.
    apply Forall_app in F as [F3 F]. apply Forall_app in F as [F5 _]. apply Forall_app in U2 as [U3 U2]. apply Forall_app in U2 as [U5 _].
    destruct (forest_deep _ _ D3 eq_refl U3 F3) as [A1 A2]. destruct (forest_deep _ _ D5 eq_refl U5 F5) as [B1 B2].
    change (room (Star (Seq (Opt (Nt R_fws)) (Nt R_ccontent)))) with 0%Z in A2. change (room (Opt (Nt R_fws))) with 0%Z in B2.
    change (Leaf t :: f3 ++ f5 ++ [Leaf t']) with ([Leaf t] ++ f3 ++ f5 ++ [Leaf t']). rewrite !yields_app, !level_app, !peak_app, !most_app.
    change (yields [Leaf t]) with [t]. change (yields [Leaf t']) with [t'].
    assert (X : delta t = 1%Z) by (unfold delta; rewrite <- Ht; reflexivity). assert (X' : delta t' = (-1)%Z) by (unfold delta; rewrite <- Ht'; reflexivity).
    cbn [level peak]. rewrite X, X', A1, B1. change (room (Nt R_comment)) with 1%Z. change (most [Leaf t]) with 0. change (most [Leaf t']) with 0.
    pose proof (peak_pos (yields f3)). pose proof (peak_pos (yields f5)).
    rewrite !Nat2Z.inj_max. change (Z.of_nat 0) with 0%Z. split; [reflexivity|]. change (Z.max 0 (-1 + 0)) with 0%Z. lia.
  - destruct (forest_deep _ _ D (ev_body r C E) U F) as [A1 A2]. split; [exact A1|]. pose proof (room_le (body r)). pose proof (room_le (Nt r)). lia.
Qed.

(** ** Theorems, continued *)
(** An address after a comment that is nested [k] times.  It is accepted, whatever [k] is, and the generated parser
    builds a tree of more than 2 [k] levels, for which [2k] of its functions (and of the walk) are active at once. *)
(* /repo: specification *)
Definition nested (k : nat) : list byte := repeat 40%N k ++ repeat 41%N k ++ bs "a@b".
Lemma nest_body k : comment_body (repeat 40%N k ++ repeat 41%N k).
Proof.
  induction k as [|k IH]; [apply cb_end; left; reflexivity|]. replace (repeat 40%N (S k) ++ repeat 41%N (S k)) with ([] ++ (bs "(" ++ (repeat 40%N k ++ repeat 41%N k) ++ bs ")") ++ []).
  - apply cb_nested; [left; reflexivity | exact IH | apply cb_end; left; reflexivity].
  - cbn [app repeat]. rewrite app_nil_r, <- app_assoc. change (bs "(") with [40%N]. change (bs ")") with [41%N]. change [41%N] with (repeat 41%N 1). rewrite <- repeat_app, Nat.add_comm. reflexivity.
Qed.
Lemma nest_comments k : ogap (repeat 40%N k ++ repeat 41%N k).
Proof.
  destruct k as [|k]; [left; reflexivity|]. right. right. replace (repeat 40%N (S k) ++ repeat 41%N (S k)) with ([] ++ (bs "(" ++ (repeat 40%N k ++ repeat 41%N k) ++ bs ")") ++ []).
  - apply cs_one; [left; reflexivity | eexists; split; [reflexivity | apply nest_body] | left; reflexivity].
  - cbn [app repeat]. rewrite app_nil_r, <- app_assoc. change (bs "(") with [40%N]. change (bs ")") with [41%N]. change [41%N] with (repeat 41%N 1). rewrite <- repeat_app, Nat.add_comm. reflexivity.
Qed.
Lemma decode_nested k : decode (nested k) = (repeat 40%N k ++ repeat 41%N k) ++ decode (bs "a@b").
Proof.
  unfold nested. rewrite decode_app_ascii by (apply Forall_forall; intros c Hc; apply repeat_spec in Hc as ->; unfold ascii; lia).
  rewrite decode_app_ascii by (apply Forall_forall; intros c Hc; apply repeat_spec in Hc as ->; unfold ascii; lia). apply app_assoc.
Qed.
Lemma peak_nested e k : (Z.of_nat k <= peak (tokens e (nested k)))%Z /\ unmarked (tokens e (nested k)).
Proof.
  assert (E : tokens e (nested k) = (repeat (mkTok T_LParens 40%N) k ++ repeat (mkTok T_RParens 41%N) k) ++ tokens e (bs "a@b")).
  { unfold tokens, lex. rewrite decode_nested, !flat_map_app, <- !app_assoc. f_equal; [|f_equal].
    - induction k as [|k IH]; [reflexivity|]. cbn [repeat flat_map]. rewrite IH. reflexivity.
    - induction k as [|k IH]; [reflexivity|]. cbn [repeat flat_map]. rewrite IH. reflexivity. }
  rewrite E. split.
  - assert (P : forall j v, (Z.of_nat j <= peak (repeat (mkTok T_LParens 40%N) j ++ v))%Z).
    { induction j as [|j IH]; intros v; [apply peak_pos|]. cbn [repeat app peak]. specialize (IH v). change (delta (mkTok T_LParens 40%N)) with 1%Z. lia. }
    rewrite <- app_assoc. apply P.
  - unfold unmarked. rewrite !Forall_app. assert (B : Forall (fun t => ~ In (tt t) marks) (tokens e (bs "a@b"))).
    { unfold tokens. destruct (bad_rune e); vm_compute; repeat constructor; intuition discriminate. }
    repeat split; try exact B; apply Forall_forall; intros t Ht; apply repeat_spec in Ht as ->; vm_compute; intuition discriminate.
Qed.
Theorem C74_depth_grows e k :
  ParseAddressList e (nested k) = Ret (Some [mkAddr [] (bs "a@b")]) None /\
  forall w, scans (bad_rune e) (decode (nested k)) w -> exists n0, forall n, n0 <= n -> forall f c m,
    may_end (rstart n R_addressList w) (RDone f c m) -> failed m = false /\ exists t, f = [t] /\ 2 * k <= height t.
Proof.
  assert (Q : ParseAddressList e (nested k) = Ret (Some [mkAddr [] (bs "a@b")]) None).
  { rewrite (C64_leading_gap e _ (nested k) (bs "a@b") (nest_comments k) (decode_nested k)); [unfold ParseAddressList, tokens; destruct (bad_rune e); vm_compute; reflexivity|].
    exists 97%N, [64%N; 98%N]. split; [reflexivity|]. split; [lia|]. vm_compute. intuition discriminate. }
  split; [exact Q|]. intros w Hw. apply C49_token_stream in Hw as ->. change (lex (bad_rune e) (decode (nested k))) with (tokens e (nested k)).
  destruct (C65_every_run_ends R_addressList (tokens e (nested k)) (or_introl eq_refl) (lex_stream _ _)) as (n0 & H). exists n0. intros n Hn f c m Ho.
  destruct (proj2 (H n Hn) _ Ho) as (f' & c' & m' & K & V0 & V). injection K as <- <- <-.
  assert (Fm : failed m = false).
  { destruct (failed m) eqn:Fm; [|reflexivity]. exfalso. apply (proj1 V0 eq_refl). apply C04_accepts_grammar; [|eauto]. unfold nested. destruct k; discriminate. }
  split; [exact Fm|]. destruct (V Fm) as (t' & -> & _ & P). exists t'. split; [reflexivity|].
  apply sel_sound in P as [D Y]. rewrite app_nil_r in Y. inversion D as [| |r' f D'| | | | |]; subst.
  destruct (peak_nested e k) as [P U]. change (lex (bad_rune e) (decode (nested k))) with (tokens e (nested k)) in Y. rewrite Y, yields_node in P, U.
  destruct (all_deep _ _ (le_n (height (Node R_addressList f))) D' eq_refl U) as [_ B]. rewrite yields_node in B. cbn [most] in B. rewrite Nat.max_0_r in B.
  change (room (Nt R_addressList)) with 0%Z in B. lia.
Qed.

(** Nested comments do need two levels each. *)
Example C74_nested : map (fun k => match parse R_addressList (tokens env1 (concat (repeat (bs "(") k) ++ concat (repeat (bs ")") k) ++ bs "a@b")) with
  Some t => height t | None => 0 end) [1; 5; 9; 10; 20; 40] = [8; 15; 23; 25; 45; 85].
Proof. vm_compute. reflexivity. Qed.
