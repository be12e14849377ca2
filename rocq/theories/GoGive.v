(** The with... methods of GoCode.v do what [give] of Walker.v says. *)
From Coq Require Import String Ascii List NArith ZArith Bool Arith Lia.
From Verif Require Import Lexer Grammar Utf8 Strs Mime GoTime Parser Walker WalkerFacts GoSyntax GoCode GoRun GoFacts GoSim.
Import ListNotations.
Local Open Scope string_scope.
Local Open Scope list_scope.

Section Give.
Context (e : wenv) (wd : world).
Local Notation invoke := (invoke package e wd).
Local Notation execs := (execs package e wd).
Implicit Types (n : nat) (s : gst).

Lemma give_sim n s p lp lsp c lc lsc : gives p c = true -> lp <> lc ->
  load s lp = Some (image p lsp) -> load s lc = Some (image c lsc) -> are s lsp (adr p) -> are s lsc (adr c) ->
  exists s' ls, invoke (15 + n) (VPtr lp) (with_name c) [VPtr lc] s = Ok (VTuple []) s' /\
    load s' lp = Some (image (give p c) ls) /\
    (forall x o, x <> lp -> load s x = Some o -> load s' x = Some o) /\
    length (heap s) <= length (heap s') /\ printed s' = printed s /\
    (exists fr, ls = lsp \/ ls = lsp ++ lsc \/ (ls = lsp ++ [fr] /\ length (heap s) <= fr)) /\
    are s' ls (adr (give p c)).
Proof.
  intros G D Lp Lc Ap Ac.
  assert (T : exists f, find_method package (tname p) (with_name c) = Some f).
  { unfold gives, implements in G. cbn [forallb fst] in G. destruct (find_method package (tname p) (with_name c)) as [f|]; [now exists f | discriminate G]. }
  destruct T as [f F].
  change (15 + n) with (S (14 + n)). erewrite (invoke_own package e wd (14 + n) (VPtr lp) (with_name c) [VPtr lc] s (tname p) f);
    [| discriminate | cbn; now rewrite Lp; cbn; rewrite image_type | exact F].
  assert (Q : forall x a, load s x = Some (addr_obj a) -> x <> lp).
  { intros x a X E. subst x. rewrite Lp in X. apply (f_equal (option_map o_type)) in X. cbn in X. rewrite image_type in X. destruct p; discriminate X. }
  assert (K : forall s' ls l, (forall x o, x <> lp -> load s x = Some o -> load s' x = Some o) -> are s ls l -> are s' ls l).
  { intros s' ls l H1 H2. unfold are in *. induction H2 as [|x a ls l H3 H2 IH]; constructor; [apply H1; [now apply (Q x a) | exact H3] | exact IH]. }
  destruct c; destruct p; try (exfalso; vm_compute in G; discriminate G); vm_compute in F; injection F as <-; clear G;
    cbn [image adr give tname] in *; change (14 + n) with (S (S (S (S (S (S (S (S (S (S (S (S (S (S n)))))))))))))); look.
  all: lazymatch goal with
    | |- context [ENew] =>
      go; mk; unfold av at 1; go; rewrite (members_av _ _ _ Ap); eexists; exists (lsp ++ [length (heap s)]);
      (split; [reflexivity |]); (split; [erewrite load_store_same by ldsolve; rewrite <- av_one; reflexivity |]);
      (split; [intros x o X Y; ldsolve |]); (split; [rewrite heap_store, heap_alloc; lia |]); (split; [reflexivity |]);
      (split; [exists (length (heap s)); right; right; (split; [reflexivity | lia]) |]);
      rewrite elems_append; apply are_app; [apply K; [intros x o X Y; ldsolve | exact Ap] |];
      constructor; [| constructor]; rewrite load_store_other by (apply load_lt in Lp; lia); apply load_alloc_new
    | |- context [EAppendAll] =>
      unfold av in Lp, Lc; go; change (gty_eqb (TPtr (TName "mail.Address")) (TPtr (TName "mail.Address"))) with true; look;
      rewrite (members_av _ _ _ Ap), (members_av _ _ _ Ac), (av_append _ _ _ _ _ Ap Ac);
      go; eexists; exists (lsp ++ lsc); (split; [reflexivity |]); (split; [ldsolve |]);
      (split; [intros x o X Y; ldsolve |]); (split; [rewrite heap_store; lia |]); (split; [reflexivity |]);
      (split; [exists 0; right; left; reflexivity |]);
      rewrite elems_append; apply are_app; apply K; solve [intros x o X Y; ldsolve | assumption]
    | _ => idtac end.
  all: try lazymatch goal with |- context [SIf] => fail | _ => solve [go; eexists; exists lsp; split; [reflexivity |]; split; [ldsolve |]; split; [intros x o X Y; ldsolve |];
     split; [rewrite !heap_store; apply Nat.le_refl |]; split; [reflexivity |]; split; [exists 0; now left |]; apply K; [intros x o X Y; ldsolve | exact Ap]] end.
  all: try lazymatch goal with |- context [SIf] => fail | _ => solve [go; rewrite ?lib_at, ?lib_join; go; eexists; exists lsp; split; [reflexivity |]; split; [ldsolve |]; split; [intros x o X Y; ldsolve |];
     split; [rewrite !heap_store; apply Nat.le_refl |]; split; [reflexivity |]; split; [exists 0; now left |]; apply K; [intros x o X Y; ldsolve | exact Ap]] end.
  all: try lazymatch goal with |- context [SIf] => fail | _ => solve [go; unfold lib; look; go; eexists; exists lsp; split; [reflexivity |]; split; [ldsolve |]; split; [intros x o X Y; ldsolve |];
     split; [rewrite !heap_store; apply Nat.le_refl |]; split; [reflexivity |]; split; [exists 0; now left |]; apply K; [intros x o X Y; ldsolve | exact Ap]] end.
  all: try lazymatch goal with |- context [SIf] => fail | _ => solve [go; unfold sv; go; cbn beta iota; go; rewrite sv_app; eexists; exists lsp; split; [reflexivity |]; split; [ldsolve |]; split; [intros x o X Y; ldsolve |];
     split; [rewrite !heap_store; apply Nat.le_refl |]; split; [reflexivity |]; split; [exists 0; now left |]; apply K; [intros x o X Y; ldsolve | exact Ap]] end.
  destruct unspaced; [| destruct value0 as [|y value0]]; go;
     try change (0 <? Z.of_nat 0)%Z with false; try change (0 <? Z.of_nat (S (length value0)))%Z with true; look; go;
     rewrite ?app_nil_l; cbn [image adr]; eexists; exists lsp; (split; [reflexivity |]); (split; [ldsolve |]).
  all: split; [intros x o X Y; ldsolve |].
  all: split; [rewrite !heap_store; apply Nat.le_refl |]; split; [reflexivity |]; split; [exists 0; now left |].
  all: apply K; [intros x o X Y; ldsolve | exact Ap].
Qed.
End Give.
