(** C58: how to find the domain in a returned address. *)
From Coq Require Import String List NArith ZArith Bool Arith Lia.
From Verif Require Import Lexer Utf8 Strs Mime Walker Api Utf8Facts DateSpec AddrSpec AddrText CharFacts PropApi PropInv PropStable.
Import ListNotations.
Local Open Scope N_scope.

(** a dot-atom or a domain literal, and possibly a port *)
Definition domain_and_port (y : gostring) : Prop := exists d p, y = encode (d ++ p) /\
  (dot_atom d \/ exists b, d = bs "[" ++ b ++ bs "]" /\ literal_body b) /\ port_suffix p.

Lemma splits {A} (u v u' v' : list A) c c' : u ++ c :: v = u' ++ c' :: v' -> (u = u' /\ c = c' /\ v = v') \/ In c v' \/ In c' v.
Proof.
  revert u'. induction u as [|t u IH]; intros [|t' u'] E; cbn [app] in E.
  - injection E as -> ->. auto.
  - injection E as -> ->. right; right. apply in_app_iff. right; now left.
  - injection E as -> <-. right; left. apply in_app_iff. right; now left.
  - injection E as -> E. apply IH in E as [(-> & -> & ->)|E]; auto.
Qed.

Lemma last_one {A} (u v u' v' : list A) c : u ++ c :: v = u' ++ c :: v' -> ~ In c v -> ~ In c v' -> v = v'.
Proof. intros E N N'. apply splits in E as [(_ & _ & E)|[E|E]]; [exact E | contradiction | contradiction]. Qed.

Lemma literal_not b c : literal_body b -> literal_char c = false -> ~ In c b.
Proof. intros L N K. apply literal_chars in L. rewrite Forall_forall in L. apply L in K. congruence. Qed.

Lemma not_encoded c d : c < 128 -> ~ In c d -> ~ In c (encode d).
Proof. intros H N K. apply encode_in in K; auto. Qed.

Lemma not_app {A} (c : A) x y : ~ In c x -> ~ In c y -> ~ In c (x ++ y).
Proof. intros H1 H2 K. apply in_app_iff in K as [K|K]; auto. Qed.

(** C58: what follows the last at-sign is the domain, unless it contains "]"; then the domain starts at
    the last "[". *)
Theorem C58_where_the_domain_starts : forall e s sl a, bytes s -> ParseAddressList e s = Ret sl None -> In a (elems sl) -> a_address a <> [] ->
  exists x y, a_address a = x ++ bs "@" ++ y /\ domain_and_port y /\
    (forall x' y', a_address a = x' ++ bs "@" ++ y' -> ~ In 64 y' -> ~ In 93 y' -> y' = y) /\
    (forall x' y', a_address a = x' ++ bs "@" ++ y' -> ~ In 64 y' -> In 93 y' ->
       forall x2 z, a_address a = x2 ++ bs "[" ++ z -> ~ In 91 z -> bs "[" ++ z = y).
Proof.
  intros e s sl a B P Ia N. pose proof (all_shapes e s sl B P) as F. rewrite Forall_forall in F. specialize (F a Ia).
  destruct F as [F|(l & d & p & E & D & Po & _)]; [contradiction|]. exists l, (encode (d ++ p)). split; [exact E|]. split; [exists d, p; auto|].
  rewrite E. destruct D as [D|(b & -> & L)].
  - assert (N1 : ~ In 64 (encode (d ++ p))) by (apply not_encoded; [lia|]; apply not_app; [apply dot_not; auto; discriminate | apply port_not; auto; discriminate]).
    assert (N2 : ~ In 93 (encode (d ++ p))) by (apply not_encoded; [lia|]; apply not_app; [apply dot_not; auto; discriminate | apply port_not; auto; discriminate]).
    split.
    + intros x' y' E' A _. symmetry. exact (last_one l _ x' y' 64 E' N1 A).
    + intros x' y' E' A I2. exfalso. apply N2. rewrite (last_one l _ x' y' 64 E' N1 A). exact I2.
  - match goal with |- context [encode ?t] => assert (Q : encode t = (91 :: encode b) ++ 93 :: encode p) by (rewrite !encode_app; cbn; now rewrite <- app_assoc) end.
    assert (N1 : ~ In 64 (encode p)) by (apply not_encoded; [lia|]; apply port_not; auto; discriminate).
    assert (N2 : ~ In 91 (encode b ++ 93 :: encode p)).
    { apply not_app; [apply not_encoded; [lia|]; now apply literal_not|]. intros [K|K]; [discriminate K|]. revert K. apply not_encoded; [lia|]. apply port_not; auto; discriminate. }
    rewrite Q. split.
    + intros x' y' E' A C. exfalso. cbn [bs map list_ascii_of_string app] in E'. change (l ++ 64 :: 91 :: encode b ++ 93 :: encode p = x' ++ 64 :: y') in E'.
      replace (l ++ 64 :: 91 :: encode b ++ 93 :: encode p) with ((l ++ 64 :: 91 :: encode b) ++ 93 :: encode p) in E' by (now rewrite <- app_assoc).
      apply splits in E' as [(_ & K & _)|[K|K]]; [discriminate K | contradiction | contradiction].
    + intros x' y' _ _ _ x2 z E2 Nz. change (l ++ 64 :: 91 :: encode b ++ 93 :: encode p = x2 ++ 91 :: z) in E2.
      change (91 :: z = 91 :: encode b ++ 93 :: encode p). f_equal. symmetry. apply (last_one (l ++ [64]) _ x2 z 91); auto. rewrite <- app_assoc. exact E2.
Qed.

(** The last at-sign alone does not do. *)
Theorem C58_fails_for_literals : ParseAddressList env0 (bs "a@[b@c]") = Ret (Some [mkAddr [] (bs "a@[b@c]")]) None /\
  bs "a@[b@c]" = bs "a@[b" ++ bs "@" ++ bs "c]" /\ ~ domain_and_port (bs "c]").
Proof.
  split; [vm_compute; reflexivity|]. split; [reflexivity|]. intros (d & p & E & D & P).
  assert (I2 : In 93 (encode (d ++ p))) by (rewrite <- E; cbn; auto). apply encode_in in I2; [|lia].
  destruct D as [D|(b & -> & L)].
  - revert I2. apply not_app; [apply dot_not; auto; discriminate | apply port_not; auto; discriminate].
  - rewrite !encode_app in E. discriminate E.
Qed.

Example C58_met : exists sl a, ParseAddressList env0 (bs """a@b""@[c:1]:25, ""x@[y""@z") = Ret sl None /\ In a (elems sl) /\ a_address a = bs "a@b@[c:1]:25".
Proof. eexists _, _. split; [vm_compute; reflexivity|]. split; [left; reflexivity | reflexivity]. Qed.
