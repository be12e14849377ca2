(** C01-C07: the contract of the two functions and the language they accept.

    Vocabulary: [ParseAddressList]/[ParseDateTime] (Api.v) return [Panic] or [Ret value error];
    [tokens e s] (Api.v) is the token string of input [s], including the final EOF token;
    [lang (Nt r) w] (Spec.v): [w] is a sentence of grammar rule [r];
    [selected r w t] (Spec.v): [t] is the tree of [w] that takes at every choice the first
    listed alternative from which the whole rest of the input can still be parsed. *)
From Coq Require Import String List NArith ZArith Bool.
From Verif Require Import Lexer Grammar Utf8 Strs Mime GoTime Parser Walker Api Spec ParserFacts
  WalkerFacts Static Total.
Import ListNotations.

Definition env0 : env := mkEnv (mkWenv 2020 None) SkipBad.

(** C01 *)
Theorem C01_address_list_contract : forall (e : env) (s : gostring),
  (exists l, ParseAddressList e s = Ret l None) \/
  (exists er, ParseAddressList e s = Ret None (Some er)).
Proof.
  intros e s. destruct (parse_address_list_cases e s) as [[_ H]|[[_ [_ H]]|[_ [ch [_ [_ [_ [_ H]]]]]]]];
    rewrite H; eauto.
Qed.

(** C02 *)
Theorem C02_date_time_contract : forall (e : env) (s : gostring),
  (exists t, ParseDateTime e s = Ret t None) \/
  (exists er, ParseDateTime e s = Ret zero_time (Some er)).
Proof.
  intros e s. destruct (parse_date_time_cases e s) as [[_ H]|[[_ [_ H]]|[_ [ch [_ [_ [_ [_ H]]]]]]]];
    rewrite H; eauto.
Qed.

(** C03 *)
Theorem C03_empty_input : forall (e : env),
  ParseAddressList e [] = Ret (Some []) None /\ ParseDateTime e [] = Ret zero_time None /\
  (forall s t, ParseDateTime e s = Ret t None -> s = [] \/ lang (Nt R_dateTime) (tokens e s)).
Proof.
  intros e. split; [reflexivity|]. split; [reflexivity|]. intros s t Ht.
  destruct (parse_date_time_cases e s) as [[H _]|[[_ [_ H]]|[_ [ch [H _]]]]].
  - now left.
  - rewrite H in Ht. discriminate.
  - right. now apply selected_lang in H.
Qed.

(** C04 *)
Theorem C04_accepts_grammar : forall (e : env) (s : gostring), s <> [] ->
  ((exists l, ParseAddressList e s = Ret l None) <-> lang (Nt R_addressList) (tokens e s)).
Proof.
  intros e s Hs. destruct (parse_address_list_cases e s) as [[E _]|[[_ [N H]]|[_ [ch [S [_ [_ [_ H]]]]]]]].
  - contradiction.
  - rewrite H. split; [intros [l E]; discriminate | intros L; contradiction].
  - rewrite H. split; [intros _; now apply selected_lang in S | eauto].
Qed.

(** C05 *)
Theorem C05_accepts_grammar : forall (e : env) (s : gostring), s <> [] ->
  ((exists t, ParseDateTime e s = Ret t None) <-> lang (Nt R_dateTime) (tokens e s)).
Proof.
  intros e s Hs. destruct (parse_date_time_cases e s) as [[E _]|[[_ [N H]]|[_ [ch [S [_ [_ [_ H]]]]]]]].
  - contradiction.
  - rewrite H. split; [intros [l E]; discriminate | intros L; contradiction].
  - rewrite H. split; [intros _; now apply selected_lang in S | eauto].
Qed.

(** C06: both functions walk the selected tree, which is unique and exists exactly for
    sentences. *)
Theorem C06_reading_is_selected_tree :
  (forall r w t1 t2, selected r w t1 -> selected r w t2 -> t1 = t2) /\
  (forall r w, lang (Nt r) w <-> exists t, selected r w t) /\
  (forall e s l, s <> [] -> ParseAddressList e s = Ret l None ->
     exists t, selected R_addressList (tokens e s) t /\
               walk (wenv_of e) t init_w = Some (mkW [] (ResList l) None)) /\
  (forall e s v, s <> [] -> ParseDateTime e s = Ret v None ->
     exists t, selected R_dateTime (tokens e s) t /\
               walk (wenv_of e) t init_w = Some (mkW [] (ResTime v) None)).
Proof.
  split; [|split; [|split]].
  - intros r w t1 t2 H1 H2. apply parse_selected in H1, H2. congruence.
  - intros r w. split.
    + intros H. destruct (parse r w) as [t|] eqn:E.
      * exists t. now apply parse_selected.
      * apply parse_none in E. contradiction.
    + intros [t H]. now apply selected_lang in H.
  - intros e s l Hs H.
    destruct (parse_address_list_cases e s) as [[E _]|[[_ [N H1]]|[_ [ch [S [D [Y [K H1]]]]]]]].
    + contradiction.
    + rewrite H1 in H. discriminate.
    + rewrite H1 in H. injection H as <-. eexists. split; [exact S|].
      now apply walk_addressList.
  - intros e s l Hs H.
    destruct (parse_date_time_cases e s) as [[E _]|[[_ [N H1]]|[_ [ch [S [D [Y [K H1]]]]]]]].
    + contradiction.
    + rewrite H1 in H. discriminate.
    + rewrite H1 in H. injection H as <-. eexists. split; [exact S|].
      now apply walk_dateTime.
Qed.

(** C07: the only error is the syntax error, and it is returned exactly when the input is not a
    sentence; in particular no value conversion can fail. *)
Theorem C07_only_syntax_errors : forall (e : env) (s : gostring) (er : error),
  (forall t, ParseDateTime e s = Ret t (Some er) ->
     er = ESyntax /\ ~ lang (Nt R_dateTime) (tokens e s)) /\
  (forall l, ParseAddressList e s = Ret l (Some er) ->
     er = ESyntax /\ ~ lang (Nt R_addressList) (tokens e s)).
Proof.
  intros e s er. split; intros t Ht.
  - destruct (parse_date_time_cases e s) as [[_ H]|[[_ [N H]]|[_ [ch [_ [_ [_ [_ H]]]]]]]];
      rewrite H in Ht; try discriminate. injection Ht as _ <-. auto.
  - destruct (parse_address_list_cases e s) as [[_ H]|[[_ [N H]]|[_ [ch [_ [_ [_ [_ H]]]]]]]];
      rewrite H in Ht; try discriminate. injection Ht as _ <-. auto.
Qed.

(** Non-vacuity: both outcomes occur, for both functions. *)
Example C01_accepts : ParseAddressList env0 (bs "A (c) <a@b>, g: c@d;") =
  Ret (Some [mkAddr (bs "A") (bs "a@b"); mkAddr [] (bs "c@d")]) None.
Proof. vm_compute. reflexivity. Qed.

Example C01_rejects : ParseAddressList env0 (bs "a@") = Ret None (Some ESyntax).
Proof. vm_compute. reflexivity. Qed.

Example C02_accepts : ParseDateTime env0 (bs "Fri, 21 Nov 1997 09:55:06 -0600") =
  Ret (go_date 1997 11 21 9 55 6 (Fixed (bs "-0600") (-21600))) None.
Proof. vm_compute. reflexivity. Qed.

Example C02_rejects : ParseDateTime env0 (bs "21 Foo 1997 09:55:06") = Ret zero_time (Some ESyntax).
Proof. vm_compute. reflexivity. Qed.

(** The grammar is ambiguous: two different trees for the same input (C06 matters). *)
Example C06_ambiguous : exists f1 f2, derives (Nt R_word) f1 /\ derives (Nt R_word) f2 /\
  yields f1 = yields f2 /\ f1 <> f2.
Proof.
  (* "=?x?q?a?=" is an encoded word and also an atom *)
  pose (k := fun ty r => Leaf (mkTok ty r)).
  pose (al := fun ty r => Node R_alpha [k ty r]).
  pose (tk := fun ty r => Node R_token [Node R_tokenChar [al ty r]]).
  pose (eq := k T_Equal 61%N). pose (q := k T_Question 63%N).
  exists [Node R_word [Node R_encodedWord
           [eq; q; Node R_charset [tk T_X 120%N]; q; Node R_encoding [tk T_Q 113%N]; q;
            Node R_encodedText [Node R_encodedChar [al T_A 97%N]]; q; eq]]].
  exists [Node R_word [Node R_atom
    [Node R_atext [eq]; Node R_atext [q]; Node R_atext [al T_X 120%N]; Node R_atext [q];
     Node R_atext [al T_Q 113%N]; Node R_atext [q]; Node R_atext [al T_A 97%N];
     Node R_atext [q]; Node R_atext [eq]]]].
  split; [|split; [|split; [reflexivity | discriminate]]].
  - assert (A : forall ty r, In ty [T_X; T_Q; T_A] -> derives (Nt R_alpha) [al ty r]).
    { intros ty r H. constructor. constructor. cbn in H |- *. intuition subst; tauto. }
    assert (TK : forall ty r, In ty [T_X; T_Q] -> derives (Nt R_token) [tk ty r]).
    { intros ty r H. constructor. apply derives_plus. exists [Node R_tokenChar [al ty r]], [].
      split; [reflexivity|]. split; [|constructor]. constructor. apply D_altl. apply A.
      cbn in *. tauto. }
    constructor. apply D_altl. apply derives_plus. eexists _, []. split; [rewrite app_nil_r; reflexivity|].
    split; [|constructor]. cbn [seqs].
    apply derives_seq. exists []. eexists. split; [reflexivity|]. split; [apply D_altr; constructor|].
    apply derives_seq. eexists. exists []. split; [rewrite app_nil_r; reflexivity|].
    split; [|apply D_altr; constructor].
    constructor.
    change (derives (seqs [Tok T_Equal; Tok T_Question; Nt R_charset; Tok T_Question; Nt R_encoding;
      Tok T_Question; Nt R_encodedText; Tok T_Question; Tok T_Equal])
      ([eq] ++ [q] ++ [Node R_charset [tk T_X 120%N]] ++ [q] ++ [Node R_encoding [tk T_Q 113%N]] ++ [q]
       ++ [Node R_encodedText [Node R_encodedChar [al T_A 97%N]]] ++ [q] ++ [eq])).
    cbn [seqs].
    repeat (constructor; [first [ apply D_cls; now left
      | constructor; apply TK; cbn; tauto
      | constructor; apply derives_plus; exists [Node R_encodedChar [al T_A 97%N]], [];
        split; [reflexivity|]; split; [|constructor]; constructor; apply D_altl; apply A; cbn; tauto ]|]).
    apply D_cls; now left.
  - constructor. apply D_altr, D_altl. cbn [seqs].
    apply derives_seq. exists []. eexists. split; [reflexivity|]. split; [apply D_altr; constructor|].
    apply derives_seq. eexists. exists []. split; [rewrite app_nil_r; reflexivity|].
    split; [|apply D_altr; constructor].
    constructor. apply derives_plus.
    exists [Node R_atext [eq]],
      (map (fun x => [x]) [Node R_atext [q]; Node R_atext [al T_X 120%N]; Node R_atext [q];
     Node R_atext [al T_Q 113%N]; Node R_atext [q]; Node R_atext [al T_A 97%N];
     Node R_atext [q]; Node R_atext [eq]]).
    split; [reflexivity|]. 
    assert (AT : forall x, derives g_atext [x] -> derives (Nt R_atext) [Node R_atext [x]])
      by (intros x H; now constructor).
    assert (A : forall ty r, In ty [T_X; T_Q; T_A] -> derives g_atext [al ty r]).
    { intros ty r H. apply D_altl. constructor. constructor. cbn in H |- *. intuition subst; tauto. }
    assert (E : derives g_atext [eq]).
    { unfold g_atext. cbn [alts].
      repeat (first [solve [apply D_altl; apply D_cls; now left] | apply D_altr]). }
    assert (Q : derives g_atext [q]).
    { unfold g_atext. cbn [alts].
      repeat (first [solve [apply D_altl; apply D_cls; now left] | apply D_altr]). }
    split; [now apply AT|]. cbn [map].
    repeat (constructor; [apply AT; first [exact E | exact Q | apply A; cbn; tauto]|]). constructor.
Qed.

Print Assumptions C01_address_list_contract.
Print Assumptions C02_date_time_contract.
Print Assumptions C03_empty_input.
Print Assumptions C04_accepts_grammar.
Print Assumptions C05_accepts_grammar.
Print Assumptions C06_reading_is_selected_tree.
Print Assumptions C07_only_syntax_errors.
