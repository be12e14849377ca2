(** The texts of AddrText.v contain no blank folded lines: two line breaks are never separated by
    blanks only. *)
From Coq Require Import String List NArith Bool Lia.
From Verif Require Import Lexer Utf8 Strs Mime Walker DateSpec AddrSpec AddrText ScanSpec.
Import ListNotations.
Local Open Scope N_scope.

(** [f]: there was a line break, and since then only blanks; [c]: the last character was CR *)
Fixpoint calm (f c : bool) (s : list rune) : bool :=
  match s with
  | [] => true
  | r :: s' =>
      if (r =? 10) && c then negb f && calm true false s'
      else if r =? 13 then calm f true s' else calm (f && blank_char r) false s'
  end.

Lemma calm_no f c p x q : calm f c (p ++ [13; 10] ++ x ++ [13; 10] ++ q) = true -> forallb (fun r => (r =? 32) || (r =? 9)) x = false.
Proof.
  intros H. destruct (forallb (fun r => (r =? 32) || (r =? 9)) x) eqn:E; [exfalso | reflexivity]. revert f c H. induction p as [|r p IH]; intros f c H.
  - cbn [app calm N.eqb Pos.eqb andb] in H. apply andb_prop in H as [_ H]. clear f c. induction x as [|r x IH]; [cbn [app calm N.eqb Pos.eqb andb negb] in H; discriminate H|].
    cbn [forallb] in E. apply andb_prop in E as [Er E]. cbn [app] in H. apply IH; [exact E|]. cbn [calm] in H. rewrite andb_false_r in H.
    destruct (r =? 13) eqn:R; [apply N.eqb_eq in R; subst; discriminate Er|]. unfold blank_char in H. rewrite Er in H. exact H.
  - cbn [app calm] in H. destruct ((r =? 10) && c); [apply andb_prop in H as [_ H]; now apply IH in H|]. destruct (r =? 13); now apply IH in H.
Qed.

(** what may follow a solid piece, and what may follow a gap *)
Definition soft (s : list rune) : Prop := forall c, calm false c s = true.
Definition hard (s : list rune) : Prop := forall f c, calm f c s = true.

Definition solid (p : list rune) : Prop := forall s, soft s -> hard (p ++ s).
Definition gappy (p : list rune) : Prop := forall s, hard s -> soft (p ++ s).

Lemma hard_soft s : hard s -> soft s.
Proof. intros H c. apply H. Qed.

Lemma soft_one_fold s : soft s -> one_fold s.
Proof. intros H p x q ->. exact (calm_no _ _ _ _ _ (H false)). Qed.

Lemma gappy_one_fold p : gappy p -> one_fold p.
Proof. intros H. apply soft_one_fold. rewrite <- (app_nil_r p). apply H. intros f c. reflexivity. Qed.

Definition firm (r : rune) : bool := negb (existsb (N.eqb r) [10; 13; 32; 9]).

Lemma firm_hard r s : firm r = true -> soft s -> hard (r :: s).
Proof.
  intros H S f c. cbn [calm]. unfold firm in H. cbn [existsb] in H. destruct (r =? 10) eqn:E1; [discriminate H|]. destruct (r =? 13) eqn:E2; [discriminate H|].
  unfold blank_char. destruct (r =? 32) eqn:E3; [discriminate H|]. destruct (r =? 9) eqn:E4; [discriminate H|]. cbn [andb orb]. rewrite andb_false_r. apply S.
Qed.

Lemma firms_solid p : p <> [] -> Forall (fun r => firm r = true) p -> solid p.
Proof.
  intros N H s S. induction H as [|r p Hr H IH]; [congruence|]. destruct p as [|r' p]; [now apply firm_hard|]. apply firm_hard; [exact Hr|].
  apply hard_soft, IH. discriminate.
Qed.

Lemma firm_solid r : firm r = true -> solid [r].
Proof. intros H. apply firms_solid; [discriminate | auto]. Qed.

Lemma pair_solid r : solid [92; r].
Proof.
  intros s S f c. cbn [app calm N.eqb Pos.eqb andb]. unfold blank_char at 1. cbn [N.eqb Pos.eqb orb]. rewrite !andb_false_r.
  destruct (r =? 13); apply S.
Qed.

Lemma solid_gappy p : solid p -> gappy p.
Proof. intros H s S. now apply hard_soft, H, hard_soft. Qed.

(** gap, solid, rest *)
Lemma gappy_solid p q : gappy p -> solid q -> forall s, soft s -> soft (p ++ q ++ s).
Proof. intros P Q s S. apply P, Q, S. Qed.

Lemma solid_app p q : solid p -> solid q -> solid (p ++ q).
Proof. intros P Q s S. rewrite <- app_assoc. apply P. now apply hard_soft, Q. Qed.

(** solid, gap, solid *)
Lemma solid_between p g q : solid p -> gappy g -> solid q -> solid (p ++ g ++ q).
Proof. intros P G Q s S. rewrite <- !app_assoc. apply P, G, Q, S. Qed.

(** gap, solid, gap *)
Lemma gappy_between p q g : gappy p -> solid q -> gappy g -> gappy (p ++ q ++ g).
Proof. intros P Q G s S. rewrite <- !app_assoc. apply P, Q, G, S. Qed.

Lemma gappy_before p q : gappy p -> solid q -> gappy (p ++ q).
Proof. intros P Q s S. rewrite <- app_assoc. now apply P, Q, hard_soft. Qed.

Lemma solid_then p g : solid p -> gappy g -> gappy (p ++ g).
Proof. intros P G s S. rewrite <- app_assoc. now apply hard_soft, P, G. Qed.

Lemma nil_gappy : gappy [].
Proof. intros s S. now apply hard_soft. Qed.

(** * White space and comments *)

Lemma blanks_calm b s f : blanks b -> hard s -> forall c, calm f c (b ++ s) = true.
Proof.
  intros H S. revert f. induction H as [|r b Hr H IH]; intros f c; [apply S|]. cbn [app calm]. unfold blank_char in *.
  destruct (r =? 10) eqn:E1; [apply N.eqb_eq in E1; subst; discriminate Hr|]. destruct (r =? 13) eqn:E2; [apply N.eqb_eq in E2; subst; discriminate Hr|].
  cbn [andb]. apply IH.
Qed.

Lemma blanks_soft b s : blanks b -> soft s -> soft (b ++ s).
Proof.
  intros H S. induction H as [|r b Hr H IH]; [exact S|]. intros c. cbn [app calm]. unfold blank_char in *.
  destruct (r =? 10) eqn:E1; [apply N.eqb_eq in E1; subst; discriminate Hr|]. destruct (r =? 13) eqn:E2; [apply N.eqb_eq in E2; subst; discriminate Hr|].
  cbn [andb]. apply IH.
Qed.

Lemma fold_gappy u : fold u -> gappy u.
Proof.
  intros [a N H|a b Ha N Hb] s S.
  - apply blanks_soft; [exact H | now apply hard_soft].
  - rewrite <- !app_assoc. apply blanks_soft; [exact Ha|]. intros c. cbn [app calm N.eqb Pos.eqb andb negb]. now apply blanks_calm.
Qed.

Lemma ofold_gappy u : optional fold u -> gappy u.
Proof. intros [->|H]; [apply nil_gappy | now apply fold_gappy]. Qed.

Lemma comment_char_firm r : comment_char r = true -> firm r = true.
Proof.
  intros H. unfold firm. destruct (existsb (N.eqb r) [10; 13; 32; 9]) eqn:E; [exfalso | reflexivity].
  cbn [existsb] in E. repeat (apply orb_prop in E as [E|E]); try discriminate E; apply N.eqb_eq in E; subst; discriminate H.
Qed.

Lemma quoted_char_firm r : quoted_char r = true -> firm r = true.
Proof.
  intros H. unfold firm. destruct (existsb (N.eqb r) [10; 13; 32; 9]) eqn:E; [exfalso | reflexivity].
  cbn [existsb] in E. repeat (apply orb_prop in E as [E|E]); try discriminate E; apply N.eqb_eq in E; subst; discriminate H.
Qed.

Lemma dtext_firm r : dtext r = true -> firm r = true.
Proof.
  intros H. unfold firm. destruct (existsb (N.eqb r) [10; 13; 32; 9]) eqn:E; [exfalso | reflexivity].
  cbn [existsb] in E. repeat (apply orb_prop in E as [E|E]); try discriminate E; apply N.eqb_eq in E; subst; discriminate H.
Qed.

Lemma atext_firm r : atext_char r = true -> firm r = true.
Proof.
  intros H. unfold firm. destruct (existsb (N.eqb r) [10; 13; 32; 9]) eqn:E; [exfalso | reflexivity].
  cbn [existsb] in E. repeat (apply orb_prop in E as [E|E]); try discriminate E; apply N.eqb_eq in E; subst; discriminate H.
Qed.

Lemma body_gappy b : comment_body b -> gappy b.
Proof.
  induction 1 as [u U|u r b U Hr Hb IH|u r b U Hr Hb IH|u c b U Hc IHc Hb IH].
  - now apply ofold_gappy.
  - apply gappy_between; [now apply ofold_gappy | now apply firm_solid, comment_char_firm | exact IH].
  - apply gappy_between; [now apply ofold_gappy | apply pair_solid | exact IH].
  - apply gappy_between; [now apply ofold_gappy | | exact IH]. apply solid_between; [now apply firm_solid | exact IHc | now apply firm_solid].
Qed.

Lemma comment_solid c : comment c -> solid c.
Proof. intros (b & -> & B). apply solid_between; [now apply firm_solid | now apply body_gappy | now apply firm_solid]. Qed.

Lemma comments_gappy x : comments x -> gappy x.
Proof.
  induction 1 as [u c u' U C U'|u c x U C X IH]; (apply gappy_between; [now apply ofold_gappy | now apply comment_solid |]); [now apply ofold_gappy | exact IH].
Qed.

Lemma ogap_gappy x : ogap x -> gappy x.
Proof. intros [->|[H|H]]; [apply nil_gappy | now apply fold_gappy | now apply comments_gappy]. Qed.

(** * Quoted strings, atoms, encoded words *)

Lemma qbody_gappy b t : quoted_body b t -> gappy b.
Proof.
  induction 1 as [u U|u r b t U Hr Hb IH|u r b t U Hr Hb IH].
  - now apply ofold_gappy.
  - apply gappy_between; [now apply ofold_gappy | now apply firm_solid, quoted_char_firm | exact IH].
  - apply gappy_between; [now apply ofold_gappy | apply pair_solid | exact IH].
Qed.

Lemma quoted_solid q t : quoted q t -> solid q.
Proof. intros (b & -> & B). apply solid_between; [now apply firm_solid | now apply qbody_gappy in B | now apply firm_solid]. Qed.

Lemma atom_firm a : atom a -> Forall (fun r => firm r = true) a.
Proof. intros [_ H]. eapply Forall_impl; [|exact H]. intros r Hr. now apply atext_firm. Qed.

Lemma atom_solid a : atom a -> solid a.
Proof. intros H. apply firms_solid; [now destruct H | now apply atom_firm]. Qed.

Lemma join_firm l : Forall atom l -> Forall (fun r => firm r = true) (join (bs ".") l).
Proof.
  induction 1 as [|a l Ha H IH]; [constructor|]. cbn [join]. destruct l as [|a' l]; [now apply atom_firm|].
  apply Forall_app. split; [now apply atom_firm|]. apply Forall_app. split; [repeat constructor | exact IH].
Qed.

Lemma join_nonnil l : l <> [] -> Forall atom l -> join (bs ".") l <> [].
Proof. intros N H. destruct H as [|a l [Na _] H]; [congruence|]. cbn [join]. destruct l; [exact Na|]. destruct a; [congruence | discriminate]. Qed.

Lemma dots_solid d : dot_atom d -> solid d.
Proof.
  intros (l & N & H & [-> | ->]).
  - apply firms_solid; [now apply join_nonnil | now apply join_firm].
  - apply solid_app; [|now apply firm_solid]. apply firms_solid; [now apply join_nonnil | now apply join_firm].
Qed.

Lemma charset_firm c : nonempty_all charset_char c -> Forall (fun r => firm r = true) c.
Proof.
  intros [_ H]. eapply Forall_impl; [|exact H]. intros r Hr. cbv beta in Hr. unfold firm. destruct (existsb (N.eqb r) [10; 13; 32; 9]) eqn:E; [exfalso | reflexivity].
  cbn [existsb] in E. repeat (apply orb_prop in E as [E|E]); try discriminate E; apply N.eqb_eq in E; subst; discriminate Hr.
Qed.

Lemma enc_firm w : encoded_word w -> w <> [] /\ Forall (fun r => firm r = true) w.
Proof.
  intros (c & e & t & -> & Hc & He & Ht). split; [discriminate|].
  repeat (apply Forall_app; split); try (repeat constructor); [now apply charset_firm | now apply charset_firm|].
  destruct Ht as [_ Ht]. eapply Forall_impl; [|exact Ht]. intros r Hr. cbv beta in Hr. unfold encoded_char in Hr. apply andb_prop in Hr as [Hr _]. apply andb_prop in Hr as [Hr _]. now apply atext_firm.
Qed.

Lemma encs_solid l : l <> [] -> Forall encoded_word l -> solid (concat l).
Proof.
  intros N H. apply firms_solid.
  - destruct H as [|w l Hw H]; [congruence|]. apply enc_firm in Hw as [Nw _]. cbn [concat]. destruct w; [congruence | discriminate].
  - induction H as [|w l Hw H IH]; [constructor|]. cbn [concat]. apply enc_firm in Hw as [_ Fw]. apply Forall_app. split; [exact Fw|].
    destruct l; [constructor|]. apply IH. discriminate.
Qed.

Section texts.
  Variable rd : charset_reader.

  (** with encoded words, gaps are not long *)
  Lemma wgap_gappy g : wgap true g -> gappy g.
  Proof. intros [G|[[=] _]]. now apply ogap_gappy. Qed.

  Lemma item_solid i : item_ok true i -> solid (item_text i).
  Proof.
    destruct i as [a|l|q t|r]; cbn [item_ok item_text].
    - intros [H _]. now apply atom_solid.
    - intros (_ & N & H). now apply encs_solid.
    - apply quoted_solid.
    - intros [-> | ->]; now apply firm_solid.
  Qed.

  Lemma name_soft l : forall b s, l <> [] -> items_ok true b l -> soft s -> soft (name_text l ++ s).
  Proof.
    induction l as [|[g i] l IH]; intros b s N H S; [congruence|]. cbn [items_ok] in H. destruct H as (G & I & _ & H).
    unfold name_text. cbn [flat_map]. rewrite <- !app_assoc. apply gappy_solid; [now apply wgap_gappy | now apply item_solid|].
    destruct l as [|p l]; [exact S|]. apply (IH (is_run i)); [discriminate | exact H | exact S].
  Qed.

  Lemma named_soft l s : name_ok true l -> soft s -> soft (name_text l ++ s).
  Proof. intros [M H] S. apply (name_soft l false s); [now destruct l | exact H | exact S]. Qed.

  Lemma words_gappy x v : words_m rd true x v -> gappy x.
  Proof.
    induction 1 as [g i g' G I _ G'|g i g' x v G I _ G' H IH].
    - apply gappy_between; [now apply ogap_gappy | now apply item_solid | now apply ogap_gappy].
    - apply gappy_between; [now apply ogap_gappy | now apply item_solid |]. apply gappy_between; [now apply ogap_gappy | now apply firm_solid | exact IH].
  Qed.

  Lemma local_gappy x v : local_m rd true x v -> gappy x.
  Proof.
    intros [g l g' G L _ G'|x' v' H]; [|now apply words_gappy in H]. apply gappy_between; [now apply ogap_gappy | now apply dots_solid | now apply ogap_gappy].
  Qed.

  Lemma literal_gappy b : literal_body b -> gappy b.
  Proof.
    induction 1 as [u U|u r b U Hr Hb IH]; [now apply ofold_gappy|]. apply gappy_between; [now apply ofold_gappy | now apply firm_solid, dtext_firm | exact IH].
  Qed.

  Lemma domain_solid d : domain_m d -> solid d.
  Proof.
    intros [d' H _|b H]; [now apply dots_solid|]. apply solid_between; [now apply firm_solid | now apply literal_gappy | now apply firm_solid].
  Qed.

  Lemma digits_solid p : p <> [] -> Forall (fun r => digit_char r = true) p -> solid p.
  Proof.
    intros N H. apply firms_solid; [exact N|]. eapply Forall_impl; [|exact H]. intros r Hr. apply atext_firm. unfold atext_char. unfold digit_char in Hr. rewrite Hr, !orb_true_r. reflexivity.
  Qed.

  Lemma spec_gappy x a : spec_m rd true x a -> gappy x.
  Proof.
    intros [x' l g d g' L G D G'|x' l g d g' p L G D G' N P].
    - apply gappy_between; [now apply local_gappy in L | now apply firm_solid |]. apply gappy_between; [now apply ogap_gappy | now apply domain_solid | now apply ogap_gappy].
    - apply gappy_between; [now apply local_gappy in L | now apply firm_solid |]. apply gappy_between; [now apply ogap_gappy | now apply domain_solid |].
      apply gappy_between; [now apply ogap_gappy | now apply firm_solid |]. now apply solid_gappy, digits_solid.
  Qed.

  Lemma route_end_solid e : route_end e -> solid e.
  Proof. induction 1 as [|g e G E IH]; [now apply firm_solid|]. apply solid_between; [now apply firm_solid | now apply ogap_gappy | exact IH]. Qed.

  Lemma route_solid r : route_m r -> solid r.
  Proof.
    induction 1 as [g d g' e G D G' E|g d g' g2 r G D G' G2 R IH|g r G R IH].
    - apply solid_between; [now apply firm_solid | now apply ogap_gappy |]. apply solid_between; [now apply domain_solid | now apply ogap_gappy | now apply route_end_solid].
    - apply solid_between; [now apply firm_solid | now apply ogap_gappy |]. apply solid_between; [now apply domain_solid | now apply ogap_gappy |].
      apply solid_between; [now apply firm_solid | now apply ogap_gappy | exact IH].
    - apply solid_between; [now apply firm_solid | now apply ogap_gappy | exact IH].
  Qed.

  Lemma led_solid r : led_route true r -> solid r.
  Proof. induction 1 as [r H|g r G R IH]; [now apply route_solid|]. apply solid_between; [now apply firm_solid | now apply wgap_gappy | exact IH]. Qed.

  Lemma angle_solid x a : angle_m rd true x a -> solid x.
  Proof.
    intros [x' a' S| |g r x' a' G R S].
    - apply solid_between; [now apply firm_solid | now apply spec_gappy in S | now apply firm_solid].
    - apply firms_solid; [discriminate | repeat constructor].
    - apply solid_between; [now apply firm_solid | now apply wgap_gappy |]. apply solid_between; [now apply led_solid | now apply spec_gappy in S | now apply firm_solid].
  Qed.

  Lemma mailbox_gappy x m : mailbox_m rd true x m -> gappy x.
  Proof.
    intros [x' a S|g x' a g' G A G'|l g x' a g' L G A G'].
    - now apply spec_gappy in S.
    - apply gappy_between; [now apply ogap_gappy | now apply angle_solid in A | now apply ogap_gappy].
    - intros s S. rewrite <- app_assoc. apply named_soft; [exact L|]. apply gappy_between; [now apply wgap_gappy | now apply angle_solid in A | now apply ogap_gappy | exact S].
  Qed.

  Lemma sep_solid s : s = 44 \/ s = 59 -> solid [s].
  Proof. intros [-> | ->]; now apply firm_solid. Qed.

  Lemma mailboxes_gappy x l : mailboxes_m rd true x l -> gappy x.
  Proof.
    induction 1 as [x a H|x a s y l H S Y IH]; [now apply mailbox_gappy in H|]. apply gappy_between; [now apply mailbox_gappy in H | now apply sep_solid | exact IH].
  Qed.

  Lemma sparse_gappy (P : list rune -> list addr -> Prop) b x l : (forall y k, P y k -> gappy y) -> sparse P b x l -> gappy x.
  Proof.
    intros HP. induction 1 as [x l H|x H|x l b y l' H Y IH|x b y l' H Y IH]; [now apply HP in H | now apply ogap_gappy | |];
      (apply gappy_between; [| now apply firm_solid | exact IH]); [now apply HP in H | now apply ogap_gappy].
  Qed.

  Lemma one_gappy x l : one_mailbox rd true x l -> gappy x.
  Proof. intros (a & H & _). now apply mailbox_gappy in H. Qed.

  Lemma group_gappy x l : group_m rd true x l -> gappy x.
  Proof.
    intros [n g b y k s g' L G S SE G' N]. intros t T. rewrite <- app_assoc. apply named_soft; [exact L|].
    apply gappy_between; [now apply wgap_gappy | now apply firm_solid | | exact T].
    pose proof (sparse_gappy _ _ _ _ one_gappy S) as Y. destruct SE as [-> | ->].
    - rewrite (N eq_refl). cbn [app]. rewrite app_nil_r. exact Y.
    - apply gappy_between; [exact Y | now apply firm_solid | now apply ogap_gappy].
  Qed.

  Lemma address_gappy x l : address_m rd true x l -> gappy x.
  Proof. intros [H|H]; [now apply one_gappy in H | now apply group_gappy in H]. Qed.

  Lemma addresses_gappy x l : addresses_m rd true x l -> gappy x.
  Proof.
    induction 1 as [x l H|x l s y l' H S Y IH]; [now apply address_gappy in H|]. apply gappy_between; [now apply address_gappy in H | now apply sep_solid | exact IH].
  Qed.

  (** ** No blank folded lines *)

  Lemma mailboxes_fold x l : mailboxes_m rd true x l -> one_fold x.
  Proof. intros H. apply gappy_one_fold. now apply mailboxes_gappy in H. Qed.

  Lemma addresses_fold x l : addresses_m rd true x l -> one_fold x.
  Proof. intros H. apply gappy_one_fold. now apply addresses_gappy in H. Qed.

  Lemma sparse_fold b x l : sparse (address_m rd true) b x l -> one_fold x.
  Proof. intros H. apply gappy_one_fold. now apply (sparse_gappy _ _ _ _ address_gappy) in H. Qed.
End texts.
