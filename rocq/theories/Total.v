(** No walk of a parser-built tree panics or records an error. *)
From Coq Require Import String List NArith ZArith Bool Arith Lia.
From Verif Require Import Lexer Grammar Utf8 Strs Mime GoTime Parser Walker Api Spec ParserFacts
  WalkerFacts Static.
Import ListNotations.

Definition node_noerr (e : wenv) (r : rule) (ch : list tree) : Prop :=
  match enter_node e r ch with Some (Some (_, Some _)) => False | _ => True end.

Lemma werr_none e t : all_nodes (node_noerr e) t -> forall er, werr e er t = er.
Proof.
  induction t as [t|r ch IH] using tree_ind'; intros H er; [reflexivity|].
  apply all_nodes_node in H as [H1 H2]. cbn [werr]. unfold node_noerr in H1.
  assert (Hf : forall er, fold_left (werr e) ch er = er).
  { clear H1 er. induction ch as [|c ch IHch]; intros er; [reflexivity|].
    inversion IH; subst. inversion H2; subst. cbn [fold_left]. rewrite H1; auto. }
  rewrite Hf. destruct (enter_node e r ch) as [[[n [x|]]|]|]; try reflexivity. destruct H1.
Qed.

(** ** Texts of single tokens *)

Lemma lex_alpha r T : (45 <= T <= 70)%N -> lex_rune r = Some T ->
  (r < 128)%N /\ lower_byte r = (T + 52)%N.
Proof.
  intros HT. unfold lex_rune.
  repeat match goal with
         | |- context [if ?b then _ else _] =>
             let E := fresh "E" in
             destruct b eqn:E;
             [intros Hlex; injection Hlex as Hlex; subst T;
              first [ exfalso; revert HT; clear; unfold T_U_00, T_U_01_08; cbv; intuition discriminate
                    | apply orb_true_iff in E; destruct E as [E|E]; apply N.eqb_eq in E; subst r;
                      split; reflexivity ] |]
         end.
  discriminate.
Qed.

Lemma alpha_tok t : tok_ok t -> (45 <= tt t <= 70)%N ->
  exists c, tok_text t = [c] /\ lower_byte c = (tt t + 52)%N.
Proof.
  intros H E.
  assert (Hl : lex_rune (tr t) = Some (tt t)).
  { apply tok_ok_lex; [exact H | |]; intros E'; rewrite E' in E; cbv in E; intuition. }
  apply lex_alpha in Hl as [H1 H2]; [|exact E]. exists (tr t). split; [|exact H2].
  unfold tok_text. destruct (N.eqb_spec (tt t) T_EOF) as [E'|_].
  - rewrite E' in E. cbv in E. intuition.
  - unfold encode1. destruct (N.ltb_spec (tr t) 128); [reflexivity | lia].
Qed.

Lemma lex_plus r : lex_rune r = Some T_Plus -> (r =? 43)%N = true.
Proof. lex_cases. Qed.

Lemma lex_minus r : lex_rune r = Some T_Minus -> (r =? 45)%N = true.
Proof. lex_cases. Qed.

Lemma sign_tok t : tok_ok t -> In (tt t) [T_Plus; T_Minus] ->
  tok_text t = bs "+" \/ tok_text t = bs "-".
Proof.
  intros H [E|[E|[]]].
  - left. assert (Hl : lex_rune (tr t) = Some T_Plus).
    { rewrite E. apply tok_ok_lex; [exact H | |]; rewrite <- E; discriminate. }
    apply lex_plus, N.eqb_eq in Hl. unfold tok_text. rewrite <- E, Hl. reflexivity.
  - right. assert (Hl : lex_rune (tr t) = Some T_Minus).
    { rewrite E. apply tok_ok_lex; [exact H | |]; rewrite <- E; discriminate. }
    apply lex_minus, N.eqb_eq in Hl. unfold tok_text. rewrite <- E, Hl. reflexivity.
Qed.

(** ** Field texts *)

Lemma get_text_app f1 f2 : get_text (f1 ++ f2) = get_text f1 ++ get_text f2.
Proof. unfold get_text. rewrite yields_app. apply flat_map_app. Qed.

Lemma get_text_leaf t : get_text [Leaf t] = tok_text t.
Proof. unfold get_text. cbn. apply app_nil_r. Qed.

Lemma digits_text_app f1 f2 : digits_text (f1 ++ f2) = digits_text f1 ++ digits_text f2.
Proof. apply flat_map_app. Qed.

Lemma digits_text_node r ch : digits_text [Node r ch] = [].
Proof. reflexivity. Qed.

Lemma digits_text_leaf t : tt t = T_Digit -> digits_text [Leaf t] = tok_text t.
Proof. intros H. cbn. rewrite H. cbn. apply app_nil_r. Qed.

(** A list of decimal digits. *)
Definition digits (l : gostring) : Prop := Forall (fun d => (48 <= d <= 57)%N) l.

Lemma digit_is_digit d : (48 <= d <= 57)%N -> is_digit d = true.
Proof.
  intros H. unfold is_digit, in_range. apply andb_true_iff. rewrite !N.leb_le. lia.
Qed.

Lemma atoi_acc_digits l : digits l -> forall a, exists v, atoi_acc a l = Some v.
Proof.
  induction 1 as [|d l Hd Hl IH]; intros a; cbn; [eauto|].
  rewrite digit_is_digit; auto.
Qed.

Lemma int_field_digits l : digits l -> 1 <= length l <= 18 -> snd (int_field l) = None.
Proof.
  intros H Hn. unfold int_field, atoi. destruct l as [|d l]; [cbn in Hn; lia|].
  destruct (Nat.leb_spec (length (d :: l)) 18) as [_|Hbad]; [|lia].
  destruct (atoi_acc_digits _ H 0%Z) as [v ->]. reflexivity.
Qed.

(** Digits of the numeric rules: between one and four of them. *)
Ltac split_toks :=
  repeat match goal with
         | H : toks_ok (_ ++ _) |- _ => apply toks_ok_app in H as [? ?]
         | H : toks_ok [Leaf _] |- _ => apply toks_ok_leaf in H
         | H : In (tt ?t) [_] |- _ => destruct H as [H|[]]; symmetry in H
         end.

Ltac digit_texts :=
  repeat match goal with
         | H : tt ?t = T_Digit, Ho : tok_ok ?t |- _ =>
             let d := fresh "d" in let Hd := fresh "Hd" in let Ht := fresh "Ht" in
             destruct (digit_tok t Ho H) as [d [Hd Ht]]; clear Ho;
             rewrite ?digits_text_app, ?(digits_text_leaf t H), ?Ht; clear H
         end.

Definition numeric (r : rule) : bool :=
  match r with R_day | R_hour | R_minute | R_second | R_year => true | _ => false end.

Lemma numeric_digits r ch : numeric r = true -> derives (body r) ch -> toks_ok ch ->
  digits (digits_text ch) /\ 1 <= length (digits_text ch) <= 4.
Proof.
  intros Hr H Hok. destruct r; try discriminate Hr; clear Hr; dinv H; split_toks;
    rewrite ?digits_text_app, ?digits_text_node; digit_texts;
    cbn [app length digits_text flat_map];
    (split; [repeat (constructor; [assumption|]); constructor | lia]).
Qed.

Lemma month_noerr ch : derives (body R_month) ch -> toks_ok ch ->
  snd (month_value (get_text ch)) = None.
Proof.
  intros H Hok. dinv H; split_toks;
    repeat match goal with
           | H : tt ?t = _, Ho : tok_ok ?t |- _ =>
               let c := fresh "c" in let Hc := fresh "Hc" in let Hl := fresh "Hl" in
               destruct (alpha_tok t Ho) as [c [Hc Hl]];
               [rewrite H; vm_compute; split; discriminate|];
               rewrite ?get_text_app, ?(get_text_leaf t), ?Hc; rewrite H in Hl; clear Ho H
           end;
    unfold month_value; cbn [to_lower map app];
    repeat match goal with H : lower_byte _ = _ |- _ => rewrite H; clear H end;
    reflexivity.
Qed.

Lemma zone_noerr ch : derives (body R_obsZone) ch -> toks_ok ch ->
  snd (zone_value (get_text ch)) = None.
Proof.
  intros H Hok. dinv H; split_toks;
    repeat match goal with
           | H : tt ?t = _, Ho : tok_ok ?t |- _ =>
               let c := fresh "c" in let Hc := fresh "Hc" in let Hl := fresh "Hl" in
               destruct (alpha_tok t Ho) as [c [Hc Hl]];
               [rewrite H; vm_compute; split; discriminate|];
               rewrite ?get_text_app, ?(get_text_leaf t), ?Hc; rewrite H in Hl; clear Ho H
           end;
    unfold zone_value; cbn [to_lower map app];
    repeat match goal with H : lower_byte _ = _ |- _ => rewrite H; clear H end;
    reflexivity.
Qed.

Definition dv (d : N) : Z := (Z.of_N d - 48)%Z.

Lemma neq_plus d : (48 <= d <= 57)%N -> (43 =? d)%N = false /\ (45 =? d)%N = false.
Proof. intros H. rewrite !N.eqb_neq. lia. Qed.

Definition sign_of (s : gostring) : Z := if eqb_str s (bs "-") then (-1)%Z else 1%Z.

Lemma duration_hm sgn h1 h2 m1 m2 :
  sgn = bs "+" \/ sgn = bs "-" ->
  (48 <= h1 <= 57)%N -> (48 <= h2 <= 57)%N -> (48 <= m1 <= 57)%N -> (48 <= m2 <= 57)%N ->
  parse_duration (sgn ++ [h1; h2] ++ bs "h" ++ [m1; m2] ++ bs "m") =
  Some (sign_of sgn * ((dv h1 * 10 + dv h2) * 3600000000000 + (dv m1 * 10 + dv m2) * 60000000000))%Z.
Proof.
  intros Hs H1 H2 H3 H4.
  assert (E : duration_loop 7 0 (h1 :: h2 :: bs "h" ++ [m1; m2] ++ bs "m") =
    Some ((dv h1 * 10 + dv h2) * 3600000000000 + (dv m1 * 10 + dv m2) * 60000000000)%Z).
  { change (bs "h" ++ [m1; m2] ++ bs "m") with (104%N :: m1 :: m2 :: [109%N]).
    cbn [duration_loop]. rewrite (digit_is_digit h1) by assumption.
    cbn [leading_int]. rewrite (digit_is_digit h1), (digit_is_digit h2) by assumption.
    change (is_digit 104%N) with false. cbn [leading_unit].
    change (is_digit 104%N || (104 =? 46)%N) with false.
    rewrite (digit_is_digit m1) by assumption. cbn [orb].
    change (unit_ns [104%N]) with (Some 3600000000000%Z). cbn iota.
    rewrite (digit_is_digit m1) by assumption.
    replace (leading_int 0 [m1; m2; 109%N]) with (((0 * 10 + (Z.of_N m1 - 48)) * 10 + (Z.of_N m2 - 48))%Z, [109%N])
      by (cbn [leading_int]; rewrite (digit_is_digit m1), (digit_is_digit m2) by assumption; reflexivity).
    change (leading_unit [109%N]) with ([109%N], @nil N). cbn iota zeta.
    change (unit_ns [109%N]) with (Some 60000000000%Z). cbn iota.
    unfold dv. f_equal; try ring. }
  assert (Z0 : forall r, eqb_str (h1 :: h2 :: r) (bs "0") = false)
    by (intros r; cbn; destruct (h1 =? 48)%N; reflexivity).
  assert (P : forall sg neg, (sg, neg) = (43%N, false) \/ (sg, neg) = (45%N, true) ->
    forall r, parse_duration (sg :: h1 :: h2 :: r) =
    match duration_loop (S (length (h1 :: h2 :: r))) 0 (h1 :: h2 :: r) with
    | Some d => Some (if neg then - d else d)%Z | None => None end).
  { intros sg neg [Hsg|Hsg] r; injection Hsg as -> ->; unfold parse_duration; cbn iota;
      [change (43 =? 45)%N with false; change (43 =? 43)%N with true
      |change (45 =? 45)%N with true]; cbn iota; rewrite Z0; reflexivity. }
  destruct Hs as [-> | ->].
  - change (parse_duration (43%N :: h1 :: h2 :: bs "h" ++ [m1; m2] ++ bs "m") =
      Some (sign_of (bs "+") * ((dv h1 * 10 + dv h2) * 3600000000000 + (dv m1 * 10 + dv m2) * 60000000000))%Z).
    rewrite (P 43%N false) by auto.
    change (S (length (h1 :: h2 :: bs "h" ++ [m1; m2] ++ bs "m"))) with 7. rewrite E.
    change (sign_of (bs "+")) with 1%Z. now rewrite Z.mul_1_l.
  - change (parse_duration (45%N :: h1 :: h2 :: bs "h" ++ [m1; m2] ++ bs "m") =
      Some (sign_of (bs "-") * ((dv h1 * 10 + dv h2) * 3600000000000 + (dv m1 * 10 + dv m2) * 60000000000))%Z).
    rewrite (P 45%N true) by auto.
    change (S (length (h1 :: h2 :: bs "h" ++ [m1; m2] ++ bs "m"))) with 7. rewrite E.
    change (sign_of (bs "-")) with (-1)%Z. f_equal; try ring.
Qed.

(** The value of a numeric zone: sign, name and seconds. *)
Lemma offset_text ch : derives (body R_offset) ch -> toks_ok ch ->
  exists h1 h2 m1 m2, (48 <= h1 <= 57)%N /\ (48 <= h2 <= 57)%N /\ (48 <= m1 <= 57)%N /\ (48 <= m2 <= 57)%N /\
    (get_text ch = [h1; h2; m1; m2] \/
     exists sgn, (sgn = bs "+" \/ sgn = bs "-") /\ get_text ch = sgn ++ [h1; h2; m1; m2]).
Proof.
  intros H Hok. dinv H; split_toks;
    repeat match goal with
         | H : tt ?t = T_Digit, Ho : tok_ok ?t |- _ =>
             let d := fresh "d" in let Hd := fresh "Hd" in let Ht := fresh "Ht" in
             destruct (digit_tok t Ho H) as [d [Hd Ht]]; clear Ho;
             rewrite ?get_text_app, ?(get_text_leaf t), ?Ht; clear H
         end.
  - match goal with Ho : tok_ok ?t, Hi : In (tt ?t) _ |- _ =>
      pose proof (sign_tok t Ho Hi) as Hs; rewrite (get_text_leaf t) end.
    exists d2, d1, d0, d. repeat (split; [assumption|]). right. eexists. split; [exact Hs|].
    reflexivity.
  - exists d2, d1, d0, d. repeat (split; [assumption|]). left. reflexivity.
Qed.

Lemma offset_value_sign sgn h1 h2 m1 m2 :
  sgn = bs "+" \/ sgn = bs "-" ->
  (48 <= h1 <= 57)%N -> (48 <= h2 <= 57)%N -> (48 <= m1 <= 57)%N -> (48 <= m2 <= 57)%N ->
  offset_value (sgn ++ [h1; h2; m1; m2]) =
  Some (sgn ++ [h1; h2; m1; m2],
        (sign_of sgn * ((dv h1 * 10 + dv h2) * 3600 + (dv m1 * 10 + dv m2) * 60))%Z, None).
Proof.
  intros Hs H1 H2 H3 H4. unfold offset_value.
  replace (has_prefix (bs "+") (sgn ++ [h1; h2; m1; m2]) || has_prefix (bs "-") (sgn ++ [h1; h2; m1; m2]))
    with true by (destruct Hs as [-> | ->]; reflexivity).
  replace (slice_str 0 1 (sgn ++ [h1; h2; m1; m2])) with (Some sgn)
    by (destruct Hs as [-> | ->]; reflexivity).
  replace (slice_str 1 3 (sgn ++ [h1; h2; m1; m2])) with (Some [h1; h2])
    by (destruct Hs as [-> | ->]; reflexivity).
  replace (slice_str 3 5 (sgn ++ [h1; h2; m1; m2])) with (Some [m1; m2])
    by (destruct Hs as [-> | ->]; reflexivity).
  rewrite duration_hm by assumption. f_equal. f_equal. f_equal. unfold duration_seconds.
  set (x := (dv h1 * 10 + dv h2)%Z). set (y := (dv m1 * 10 + dv m2)%Z).
  replace (sign_of sgn * (x * 3600000000000 + y * 60000000000))%Z
    with ((sign_of sgn * (x * 3600 + y * 60)) * 1000000000)%Z by ring.
  apply Z.quot_mul. lia.
Qed.

Lemma offset_value_nosign h1 h2 m1 m2 :
  (48 <= h1 <= 57)%N -> (48 <= h2 <= 57)%N -> (48 <= m1 <= 57)%N -> (48 <= m2 <= 57)%N ->
  offset_value [h1; h2; m1; m2] = offset_value (bs "+" ++ [h1; h2; m1; m2]).
Proof.
  intros H1 H2 H3 H4. unfold offset_value.
  destruct (neq_plus h1 H1) as [E1 E2].
  replace (has_prefix (bs "+") [h1; h2; m1; m2] || has_prefix (bs "-") [h1; h2; m1; m2])
    with false
    by (change (false = ((43 =? h1)%N && true) || ((45 =? h1)%N && true)); rewrite E1, E2; reflexivity).
  reflexivity.
Qed.

Lemma offset_ok ch : derives (body R_offset) ch -> toks_ok ch ->
  exists rep v, offset_value (get_text ch) = Some (rep, v, None).
Proof.
  intros H Hok. apply offset_text in H as (h1 & h2 & m1 & m2 & H1 & H2 & H3 & H4 & HT); [|exact Hok].
  destruct HT as [-> | [sgn [Hs ->]]].
  - rewrite offset_value_nosign, offset_value_sign by auto. eauto.
  - rewrite offset_value_sign by auto. eauto.
Qed.

Lemma numeric_noerr r ch : numeric r = true -> derives (body r) ch -> toks_ok ch ->
  snd (int_field (digits_text ch)) = None.
Proof.
  intros Hr H Hok. destruct (numeric_digits _ _ Hr H Hok) as [Hd Hn].
  apply int_field_digits; [exact Hd | lia].
Qed.

Lemma year_noerr now text : snd (int_field text) = None -> snd (year_value now text) = None.
Proof. unfold year_value. destruct (int_field text) as [v er]. auto. Qed.

Lemma derived_noerr e r ch : derives (body r) ch -> toks_ok ch -> node_noerr e r ch.
Proof.
  intros H Hok. unfold node_noerr, enter_node.
  destruct r; try exact I;
    try (match type of H with derives (body ?r) _ =>
           rewrite (numeric_noerr r _ eq_refl H Hok); exact I end).
  - now rewrite (month_noerr ch H Hok).
  - rewrite year_noerr; [exact I|]. now apply (numeric_noerr R_year).
  - destruct (offset_ok ch H Hok) as [rep [v ->]]. exact I.
  - now rewrite (zone_noerr ch H Hok).
Qed.

(** ** The roots *)

Definition below (r : rule) : list nat := reach r.

Lemma inner_closed : closed inner = true.
Proof. vm_compute. reflexivity. Qed.

Lemma derived_safe g f : derives g f -> nts inner g = true -> toks_ok f ->
  Forall (all_nodes node_safe) f.
Proof.
  intros H Hg Hok.
  pose proof (derives_nodes _ _ H) as H1.
  pose proof (derives_rules _ _ _ inner_closed H Hg) as H2.
  pose proof (toks_ok_nodes _ Hok) as H3. clear H Hg Hok.
  rewrite Forall_forall in *. intros t Ht. specialize (H1 t Ht). specialize (H2 t Ht).
  specialize (H3 t Ht). clear Ht f. induction t as [t|r ch IH] using tree_ind'; [exact I|].
  apply all_nodes_node in H1 as [A1 B1]. apply all_nodes_node in H2 as [A2 B2].
  apply all_nodes_node in H3 as [A3 B3]. apply all_nodes_node. split.
  - split; [exact A2|]. intros ->. destruct (offset_ok ch A1 A3) as [rep [v E]].
    rewrite E. discriminate.
  - rewrite Forall_forall in *. auto.
Qed.

Lemma derived_noerrs e g f : derives g f -> toks_ok f -> Forall (all_nodes (node_noerr e)) f.
Proof.
  intros H Hok.
  pose proof (derives_nodes _ _ H) as H1.
  pose proof (toks_ok_nodes _ Hok) as H3. clear H Hok.
  rewrite Forall_forall in *. intros t Ht. specialize (H1 t Ht).
  specialize (H3 t Ht). clear Ht f. induction t as [t|r ch IH] using tree_ind'; [exact I|].
  apply all_nodes_node in H1 as [A1 B1].
  apply all_nodes_node in H3 as [A3 B3]. apply all_nodes_node. split.
  - apply derived_noerr; assumption.
  - rewrite Forall_forall in *. auto.
Qed.

Lemma walks_feeds e f : Forall (all_nodes node_safe) f -> forall p st rs er,
  walks e f (mkW (p :: st) rs er) = Some (mkW (feeds e p f :: st) rs (werrs e er f)).
Proof.
  induction 1 as [|t f Ht Hf IH]; intros p st rs er; [reflexivity|].
  cbn [walks]. rewrite walk_feed by assumption. rewrite IH. reflexivity.
Qed.

Lemma werrs_none e f : Forall (all_nodes (node_noerr e)) f -> forall er, werrs e er f = er.
Proof.
  induction 1 as [|t f Ht Hf IH]; intros er; [reflexivity|].
  unfold werrs in *. cbn [fold_left]. rewrite werr_none by assumption. apply IH.
Qed.

(** The list of addresses of an addressList node with children [ch]. *)
Definition list_value (e : wenv) (ch : list tree) : slice :=
  match feeds e (NAddressList None) ch with NAddressList l => l | _ => None end.

Lemma walk_addressList e ch :
  derives (body R_addressList) ch -> toks_ok ch ->
  walk e (Node R_addressList ch) init_w = Some (mkW [] (ResList (list_value e ch)) None).
Proof.
  intros H Hok. rewrite walk_node. cbn [do_enter enter_node]. unfold init_w. cbn [nodes res err].
  rewrite walks_feeds by (eapply derived_safe; eauto; reflexivity).
  rewrite werrs_none by (eapply derived_noerrs; eauto).
  unfold do_exit. cbn [handled nodes]. rewrite feeds_type. cbn [node_of_rule].
  unfold list_value.
  assert (Ht : node_of_rule R_addressList (feeds e (NAddressList None) ch) = true)
    by (rewrite feeds_type; reflexivity).
  destruct (feeds e (NAddressList None) ch); try discriminate Ht. reflexivity.
Qed.

(** The time of a dateTime node with children [ch]. *)
Definition time_value (e : wenv) (ch : list tree) : time :=
  match feeds e (NDateTime 0 0 0 0 0 0 UTC) ch with
  | NDateTime d mo y h mi s l => go_date y mo d h mi s l
  | _ => zero_time
  end.

Lemma walk_dateTime e ch :
  derives (body R_dateTime) ch -> toks_ok ch ->
  walk e (Node R_dateTime ch) init_w = Some (mkW [] (ResTime (time_value e ch)) None).
Proof.
  intros H Hok. rewrite walk_node. cbn [do_enter enter_node]. unfold init_w. cbn [nodes res err].
  rewrite walks_feeds by (eapply derived_safe; eauto; reflexivity).
  rewrite werrs_none by (eapply derived_noerrs; eauto).
  unfold do_exit. cbn [handled nodes]. rewrite feeds_type. cbn [node_of_rule].
  unfold time_value.
  assert (Ht : node_of_rule R_dateTime (feeds e (NDateTime 0 0 0 0 0 0 UTC) ch) = true)
    by (rewrite feeds_type; reflexivity).
  destruct (feeds e (NDateTime 0 0 0 0 0 0 UTC) ch); try discriminate Ht. reflexivity.
Qed.

(** ** The API in terms of the selected tree *)

Theorem parse_address_list_ok e s ch :
  s <> [] -> selected R_addressList (tokens e s) (Node R_addressList ch) ->
  ParseAddressList e s = Ret (list_value (wenv_of e) ch) None.
Proof.
  intros Hs H. unfold ParseAddressList. destruct s as [|b s]; [congruence|].
  pose proof H as H0. apply parse_selected in H. rewrite H.
  apply parse_derives in H as [D Y]. apply derives_nt in D as [ch' [E D]]. injection E as <-.
  rewrite walk_addressList; [reflexivity | exact D |].
  unfold toks_ok. cbn in Y. change (yields ch = tokens e (b :: s)) in Y. rewrite Y. apply lex_ok.
Qed.

Theorem parse_address_list_err e s :
  s <> [] -> ~ lang (Nt R_addressList) (tokens e s) ->
  ParseAddressList e s = Ret None (Some ESyntax).
Proof.
  intros Hs H. unfold ParseAddressList. destruct s as [|b s]; [congruence|].
  apply parse_none in H. now rewrite H.
Qed.

Theorem parse_date_time_ok e s ch :
  s <> [] -> selected R_dateTime (tokens e s) (Node R_dateTime ch) ->
  ParseDateTime e s = Ret (time_value (wenv_of e) ch) None.
Proof.
  intros Hs H. unfold ParseDateTime. destruct s as [|b s]; [congruence|].
  pose proof H as H0. apply parse_selected in H. rewrite H.
  apply parse_derives in H as [D Y]. apply derives_nt in D as [ch' [E D]]. injection E as <-.
  rewrite walk_dateTime; [reflexivity | exact D |].
  unfold toks_ok. cbn in Y. change (yields ch = tokens e (b :: s)) in Y. rewrite Y. apply lex_ok.
Qed.

Theorem parse_date_time_err e s :
  s <> [] -> ~ lang (Nt R_dateTime) (tokens e s) ->
  ParseDateTime e s = Ret zero_time (Some ESyntax).
Proof.
  intros Hs H. unfold ParseDateTime. destruct s as [|b s]; [congruence|].
  apply parse_none in H. now rewrite H.
Qed.

(** Every call falls into one of these cases. *)
Theorem parse_address_list_cases e s :
  (s = [] /\ ParseAddressList e s = Ret (Some []) None) \/
  (s <> [] /\ ~ lang (Nt R_addressList) (tokens e s) /\
   ParseAddressList e s = Ret None (Some ESyntax)) \/
  (s <> [] /\ exists ch, selected R_addressList (tokens e s) (Node R_addressList ch) /\
   derives (body R_addressList) ch /\ yields ch = tokens e s /\ toks_ok ch /\
   ParseAddressList e s = Ret (list_value (wenv_of e) ch) None).
Proof.
  destruct s as [|b s]; [left; auto|]. right. set (s' := b :: s).
  assert (Hs : s' <> []) by discriminate.
  destruct (parse R_addressList (tokens e s')) as [t|] eqn:E.
  - right. split; [exact Hs|].
    pose proof E as E0. apply parse_derives in E0 as [D Y].
    apply derives_nt in D as [ch [Et D]]. injection Et as ->.
    change (yields ch = tokens e s') in Y. exists ch.
    apply parse_selected in E. repeat split; auto.
    + unfold toks_ok. rewrite Y. apply lex_ok.
    + now apply parse_address_list_ok.
  - left. apply parse_none in E. repeat split; auto. now apply parse_address_list_err.
Qed.

Theorem parse_date_time_cases e s :
  (s = [] /\ ParseDateTime e s = Ret zero_time None) \/
  (s <> [] /\ ~ lang (Nt R_dateTime) (tokens e s) /\
   ParseDateTime e s = Ret zero_time (Some ESyntax)) \/
  (s <> [] /\ exists ch, selected R_dateTime (tokens e s) (Node R_dateTime ch) /\
   derives (body R_dateTime) ch /\ yields ch = tokens e s /\ toks_ok ch /\
   ParseDateTime e s = Ret (time_value (wenv_of e) ch) None).
Proof.
  destruct s as [|b s]; [left; auto|]. right. set (s' := b :: s).
  assert (Hs : s' <> []) by discriminate.
  destruct (parse R_dateTime (tokens e s')) as [t|] eqn:E.
  - right. split; [exact Hs|].
    pose proof E as E0. apply parse_derives in E0 as [D Y].
    apply derives_nt in D as [ch [Et D]]. injection Et as ->.
    change (yields ch = tokens e s') in Y. exists ch.
    apply parse_selected in E. repeat split; auto.
    + unfold toks_ok. rewrite Y. apply lex_ok.
    + now apply parse_date_time_ok.
  - left. apply parse_none in E. repeat split; auto. now apply parse_date_time_err.
Qed.
