(** C23, continued: what each name and each address needs. *)
From Coq Require Import String List NArith ZArith Bool Arith Lia.
From Verif Require Import Lexer Grammar Utf8 Strs Mime GoTime Parser Walker Api Spec ParserFacts
  WalkerFacts Static Total Cfws LangFacts LexFacts Utf8Facts First DateSpec AddrSpec Chosen AddrSem CharFacts PropApi PropInv.
Import ListNotations.

(** ** Specification *)
(** a returned address without text; one with a name *)
Definition is_empty (a : addr) : bool := match a_address a with [] => true | _ => false end.
Definition is_named (a : addr) : bool := match a_name a with [] => false | _ => true end.

(** ** Proofs *)
Section NEED.
Variable rd : charset_reader.
Variable f : addr -> bool.
Variable ts : list ttype.
Hypothesis Hm : forall w a, r_mailbox rd w a -> f a = true -> 1 <= cnt ts w.
Let num (l : list addr) : nat := List.length (filter f l).
Lemma num_app l l' : num (l ++ l') = num l + num l'.
Proof. unfold num. now rewrite filter_app, app_length. Qed.
Lemma num_one w a : r_mailbox rd w a -> num [a] <= cnt ts w.
Proof. intros H. unfold num. cbn [filter]. destruct (f a) eqn:E; cbn [List.length]; [exact (Hm w a H E) | lia]. Qed.
Lemma tail_need P seps w l : r_tail P seps w l -> (forall x l, P x l -> num l <= cnt ts x) -> num l <= cnt ts w.
Proof.
  intros H HP. induction H as [|k x l w l' Hk Hx Hw IH|k x w l' Hk Hx Hw IH].
  - cbn. lia.
  - rewrite num_app, cnt_cons, cnt_app. specialize (HP _ _ Hx). lia.
  - rewrite cnt_cons, cnt_app. lia.
Qed.
Lemma list_need P seps w l : r_list P seps w l -> (forall x l, P x l -> num l <= cnt ts x) -> num l <= cnt ts w.
Proof.
  intros (j & x & l1 & t & l2 & -> & HJ & Hx & Ht & ->) HP. rewrite num_app, !cnt_app.
  apply tail_need in Ht; auto. specialize (HP _ _ Hx). lia.
Qed.
Lemma address_need w l : r_address rd w l -> num l <= cnt ts w.
Proof.
  destruct 1 as [w a H|w l H _]; [now apply num_one|].
  destruct H as (q1 & wn & n & c & wl & q2 & sc & u & -> & _ & _ & _ & H & _). rewrite !cnt_app, cnt_cons, !cnt_app.
  assert (num l <= cnt ts wl); [|lia].
  destruct H as [|w l H|w H|w H]; try (cbn; lia).
  apply (list_need _ _ _ _ H). intros x l' [a [Ha ->]]. now apply num_one.
Qed.
End NEED.

Lemma one_in t x u w : tt x = t -> 1 <= cnt [t] (u ++ x :: w).
Proof. intros <-. rewrite cnt_app, cnt_cons. cbn [memb existsb]. unfold memb, existsb. rewrite N.eqb_refl. cbn. lia. Qed.
Lemma spec_at rd w a : r_addrspec rd w a -> 1 <= cnt [T_At] w.
Proof. destruct 1; apply one_in; assumption. Qed.
Lemma angle_less rd w a : r_angle rd w a -> 1 <= cnt [T_Less] w.
Proof. destruct 1; apply one_in; assumption. Qed.
Lemma angle_at rd w a : r_angle rd w a -> a <> [] -> 1 <= cnt [T_At] w.
Proof.
  destruct 1 as [u lt s a gt u' _ _ H|u lt gt u' _ _ _ _|u lt r s a gt u' _ _ _ H]; intros N; [|contradiction|]; apply spec_at in H.
  - rewrite cnt_app, cnt_cons, cnt_app. lia.
  - rewrite cnt_app, cnt_cons, !cnt_app. lia.
Qed.
Lemma at_mailbox rd w a : r_mailbox rd w a -> negb (is_empty a) = true -> 1 <= cnt [T_At] w.
Proof.
  destruct 1 as [wn n wa a H1 H2|wa a H|w a H]; unfold is_empty; cbn [a_address]; intros E.
  - rewrite cnt_app. apply angle_at in H2; [lia | intros ->; discriminate].
  - apply angle_at in H; [exact H | intros ->; discriminate].
  - eapply spec_at; exact H.
Qed.
Lemma spec_nonempty rd w a : r_addrspec rd w a -> a <> [].
Proof. destruct 1; unfold at_join; intros E; apply app_eq_nil in E as [_ E]; discriminate. Qed.
Lemma less_mailbox rd w a : r_mailbox rd w a -> (is_empty a || is_named a) = true -> 1 <= cnt [T_Less] w.
Proof.
  destruct 1 as [wn n wa a H1 H2|wa a H|w a H]; intros E.
  - rewrite cnt_app. apply angle_less in H2. lia.
  - eapply angle_less; exact H.
  - apply spec_nonempty in H. unfold is_empty, is_named in E. cbn [a_address a_name] in E. destruct a; [contradiction | discriminate].
Qed.

(** ** Theorem *)
(** Every address with text has an at-sign of its own in the input, and every one that has a name, or no text, a '<' of
    its own. *)
Theorem C23_own_marks : forall e s sl, s <> [] -> ParseAddressList e s = Ret sl None ->
  List.length (filter (fun a => negb (is_empty a)) (elems sl)) <= count_byte 64%N s /\
  List.length (filter (fun a => is_empty a || is_named a) (elems sl)) <= count_byte 60%N s.
Proof.
  intros e s sl Hs H. apply reading in H as [_ R]; [|assumption]. split.
  - apply (list_need _ _ _ (at_mailbox (reader (wenv_of e)))) in R; [|intros x l; exact (address_need _ _ _ (at_mailbox (reader (wenv_of e))) x l)].
    rewrite (cnt_kept T_At 64%N) in R by (cbn; tauto). exact R.
  - apply (list_need _ _ _ (less_mailbox (reader (wenv_of e)))) in R; [|intros x l; exact (address_need _ _ _ (less_mailbox (reader (wenv_of e))) x l)].
    rewrite (cnt_kept T_Less 60%N) in R by (cbn; tauto). exact R.
Qed.

Example C23_marks_met : let s := bs "a@b, c <d@e>, f <>, g@h" in exists l, ParseAddressList env0 s = Ret (Some l) None /\
  filter is_empty l = [mkAddr (bs "f") []] /\ map (fun p => List.length (filter p l)) [fun a => negb (is_empty a); fun a => is_empty a || is_named a] = [3; 2] /\
  count_byte 64%N s = 3 /\ count_byte 60%N s = 2.
Proof. eexists. split; [vm_compute; reflexivity|]. vm_compute. auto. Qed.
