(** How a display name made of encoded words, atoms and quoted strings is read: the first viable
    alternative takes exactly the words the text has. *)
From Coq Require Import String List NArith ZArith Bool Arith Lia.
From Verif Require Import Lexer Grammar Utf8 Strs Mime GoTime Parser Walker Api Spec ParserFacts
  WalkerFacts Static Total Cfws LangFacts LexFacts Utf8Facts First DateSpec AddrSpec Chosen AddrSem CharFacts PropApi PropInv
  ScanSpec ScanFacts ScanEnc ScanWords ScanName EncAlign.
Import ListNotations.

Inductive tit : Type := TEnc (w : word) | TAtom (a : word) | TQuo (q : word) (v : gostring).

Definition tword (i : tit) : word := match i with TEnc w => w | TAtom a => a | TQuo q _ => q end.

Definition is_tenc (i : tit) : bool := match i with TEnc _ => true | _ => false end.

Definition no_enc_start (a : word) : Prop := match a with x :: y :: _ => tt x = T_Equal -> tt y = T_Question -> False | _ => True end.

Definition tit_ok (i : tit) : Prop :=
  match i with
  | TEnc w => lang (Nt R_encodedWord) w
  | TAtom a => lang (Nt R_atom) a /\ no_enc_start a
  | TQuo q v => lang (Nt R_quotedString) q /\ r_qstring q v
  end.

Definition ltext (L : list (tit * word)) : word := flat_map (fun '(i, g) => tword i ++ g) L.

Definition not_atext (x : word) : Prop := match x with t :: _ => ~ In (tt t) (types R_atext) | [] => True end.

Fixpoint lok (L : list (tit * word)) (y : word) : Prop :=
  match L with
  | [] => True
  | (i, g) :: L' => tit_ok i /\ opt_cfws g /\ Forall lexed (tword i) /\
      (match i with TAtom _ => not_atext (g ++ ltext L' ++ y) | _ => True end) /\ lok L' y
  end.

Definition g_enc1 : gexp := seqs [Opt (Nt R_cfws); Nt R_encodedWord; Opt (Nt R_cfws)].

Lemma ltext_cons i g L : ltext ((i, g) :: L) = tword i ++ g ++ ltext L.
Proof. cbn [ltext flat_map]. now rewrite <- app_assoc. Qed.

Lemma ltext_app L M : ltext (L ++ M) = ltext L ++ ltext M.
Proof. unfold ltext. now rewrite flat_map_app. Qed.

(** ** First tokens *)
Lemma encoded_head e : lang (Nt R_encodedWord) e -> exists a b e', e = a :: b :: e' /\ tt a = T_Equal /\ tt b = T_Question.
Proof.
  intros H. apply lang_nt in H. change (body R_encodedWord) with g_encodedWord in H. unfold g_encodedWord in H. cbn [seqs] in H.
  apply lang_seq in H as (u & v & -> & A & H). apply lang_seq in H as (u2 & v2 & -> & B & _).
  apply lang_cls in A as (a & -> & [A|[]]). apply lang_cls in B as (b & -> & [B|[]]). cbn [app]. eauto 6.
Qed.

Lemma atom_head a : lang (Nt R_atom) a -> exists t a', a = t :: a' /\ In (tt t) (types R_atext).
Proof.
  intros H. apply lang_nt in H. change (body R_atom) with (Plus (Nt R_atext)) in H. apply plus_single in H as [N H]; [|reflexivity].
  destruct a as [|t a]; [congruence|]. inversion H; subst. eauto.
Qed.

Lemma quoted_head q : lang (Nt R_quotedString) q -> exists t q', q = t :: q' /\ tt t = T_DQuote.
Proof.
  intros H. apply lang_nt in H. change (body R_quotedString) with g_quotedString in H. unfold g_quotedString in H. cbn [seqs] in H.
  apply lang_seq in H as (u & v & -> & A & H). apply lang_cls in A as (a & -> & [A|[]]). cbn [app]. eauto.
Qed.

(** what a word starts with, after a gap *)
Definition word_start : list ttype := T_DQuote :: types R_atext.

Lemma equal_atext : memb T_Equal (types R_atext) = true. Proof. reflexivity. Qed.

Lemma word_start_i ty : In ty (types R_atext) -> memb ty word_start = true.
Proof. intros H. apply memb_In. right. exact H. Qed.

Lemma word_start_solid ty : memb ty word_start = true -> memb ty gap_start = false.
Proof.
  intros H. apply memb_In in H. assert (G : forallb (fun x => negb (memb x gap_start)) word_start = true) by (vm_compute; reflexivity).
  rewrite forallb_forall in G. specialize (G _ H). now destruct (memb ty gap_start).
Qed.

Lemma tit_head i : tit_ok i -> exists t x, tword i = t :: x /\ memb (tt t) word_start = true.
Proof.
  destruct i as [w|a|q v]; cbn [tit_ok tword].
  - intros H. destruct (encoded_head w H) as (a & b & e' & -> & E & _). exists a, (b :: e'). split; [reflexivity|]. rewrite E. reflexivity.
  - intros [H _]. destruct (atom_head a H) as (t & x & -> & E). exists t, x. split; [reflexivity|]. now apply word_start_i.
  - intros [H _]. destruct (quoted_head q H) as (t & x & -> & E). exists t, x. split; [reflexivity|]. now rewrite E.
Qed.

Lemma lang_enc1 w : lang g_enc1 w -> exists u e u', w = u ++ e ++ u' /\ opt_cfws u /\ lang (Nt R_encodedWord) e /\ opt_cfws u'.
Proof.
  intros H. cbn [g_enc1 seqs] in H. apply lang_seq in H as (u & v & -> & A & H). apply lang_seq in H as (e & u' & -> & B & C). exists u, e, u'. auto.
Qed.

Lemma lang_enc1_i u e u' : opt_cfws u -> lang (Nt R_encodedWord) e -> opt_cfws u' -> lang g_enc1 (u ++ e ++ u').
Proof. intros A B C. cbn [g_enc1 seqs]. apply lang_seq_i; [exact A|]. apply lang_seq_i; assumption. Qed.

Lemma word_shape x : lang (Nt R_word) x -> exists u t r, x = u ++ t :: r /\ opt_cfws u /\ memb (tt t) word_start = true.
Proof.
  intros H. apply lang_nt in H. change (body R_word) with g_word in H. unfold g_word in H. cbn [alts] in H.
  apply lang_alt in H as [H|H].
  - apply lang_seq in H as (w1 & w2 & -> & H & _). apply lang_enc1 in H as (u & e & u' & -> & U & E & _).
    destruct (encoded_head e E) as (a & b & e' & -> & K & _). exists u, a, ((b :: e') ++ u' ++ w2). split; [now repeat (rewrite <- app_assoc; cbn [app])|].
    split; [exact U|]. now rewrite K.
  - cbn [seqs] in H. apply lang_alt in H as [H|H]; apply lang_seq in H as (u & v & -> & U & H); apply lang_seq in H as (a & u' & -> & A & _).
    + destruct (atom_head a A) as (t & a' & -> & K). exists u, t, (a' ++ u'). split; [reflexivity|]. split; [exact U | now apply word_start_i].
    + destruct (quoted_head a A) as (t & a' & -> & K). exists u, t, (a' ++ u'). split; [reflexivity|]. split; [exact U | now rewrite K].
Qed.

(** ** Viability *)
(** [V] holds of what remains, whatever part of the gap has been read. *)
Definition good (V : word -> Prop) (r : word) : Prop := forall z, opt_cfws z -> V (z ++ r).

Lemma no_gap : opt_cfws []. Proof. apply lang_opt_none. Qed.

Lemma good_star a V r : good V r -> good (viable (Star a) V) r.
Proof. intros G z Z. exists [], (z ++ r). split; [reflexivity|]. split; [apply lang_star_nil | now apply G]. Qed.

Lemma word_i u i g : opt_cfws u -> tit_ok i -> opt_cfws g -> lang (Nt R_word) (u ++ tword i ++ g).
Proof.
  intros U I G. apply lang_nt_i. change (body R_word) with g_word. unfold g_word. cbn [alts]. destruct i as [w|a|q v]; cbn [tit_ok tword] in *.
  - apply lang_altl. change (lang (Plus g_enc1) (u ++ w ++ g)). rewrite <- (app_nil_r (u ++ w ++ g)). apply lang_seq_i; [now apply lang_enc1_i | apply lang_star_nil].
  - destruct I as [I _]. apply lang_altr, lang_altl. cbn [seqs]. apply lang_seq_i; [exact U|]. apply lang_seq_i; assumption.
  - destruct I as [I _]. apply lang_altr, lang_altr. cbn [seqs]. apply lang_seq_i; [exact U|]. apply lang_seq_i; assumption.
Qed.

Lemma good_words W y : good W y -> forall L, lok L y -> good (viable (Star (Nt R_word)) W) (ltext L ++ y).
Proof.
  intros G L. induction L as [|[i g] L IH]; intros K.
  - cbn [ltext flat_map app]. now apply good_star.
  - destruct K as (I & Gg & _ & _ & K). intros z Z. rewrite ltext_cons.
    destruct (IH K [] no_gap) as (x & w & E & Lx & Hw). cbn [app] in E. exists ((z ++ tword i ++ g) ++ x), w.
    split; [repeat (rewrite <- app_assoc; cbn [app]); now rewrite E|]. split; [|exact Hw]. apply lang_star_cons; [now apply word_i | exact Lx].
Qed.

Lemma solid_items L y : lok L y -> solid y -> solid (ltext L ++ y).
Proof.
  destruct L as [|[i g] L]; [auto|]. intros (I & _) _. destruct (tit_head i I) as (t & x & E & K). rewrite ltext_cons, E. cbn [app solid]. now apply word_start_solid.
Qed.

(** ** Encoded words *)
(** [r] does not start with an encoded word *)
Definition no_encoded (r : word) : Prop := forall e x, lang (Nt R_encodedWord) e -> r = e ++ x -> False.

Definition etext (ws : list (word * word)) : word := flat_map (fun '(w, g) => w ++ g) ws.
Definition eok (ws : list (word * word)) : Prop := Forall (fun '(w, g) => lang (Nt R_encodedWord) w /\ Forall lexed w /\ opt_cfws g) ws.

Lemma etext_cons w g ws : etext ((w, g) :: ws) = w ++ g ++ etext ws.
Proof. cbn [etext flat_map]. now rewrite <- app_assoc. Qed.

Lemma encoded_solid e x : lang (Nt R_encodedWord) e -> solid (e ++ x).
Proof. intros H. destruct (encoded_head e H) as (a & b & e' & -> & E & _). cbn [app solid]. rewrite E. reflexivity. Qed.

Lemma etext_solid ws r : eok ws -> solid r -> solid (etext ws ++ r).
Proof. intros H S. destruct H as [|[w g] ws (A & B & C) H]; [exact S|]. rewrite etext_cons, <- app_assoc. now apply encoded_solid. Qed.

Lemma good_encs V r ws : good V r -> eok ws -> good (viable (Star g_enc1) V) (etext ws ++ r).
Proof.
  intros G. induction 1 as [|[w g] ws (A & B & C) H IH].
  - cbn [etext flat_map app]. now apply good_star.
  - intros z Z. rewrite etext_cons. destruct (IH [] no_gap) as (x & v & E & Lx & Hv). cbn [app] in E.
    exists ((z ++ w ++ g) ++ x), v. split; [repeat (rewrite <- app_assoc; cbn [app]); now rewrite E|]. split; [|exact Hv].
    apply lang_star_cons; [now apply lang_enc1_i | exact Lx].
Qed.

Definition enc_of (e : wenv) (w : word) : gostring := encoded_word_value (reader e) (text w).

Lemma lx_app u v : Forall lx (u ++ v) <-> Forall lx u /\ Forall lx v.
Proof. apply Forall_app. Qed.

Lemma lexed_lx u : Forall lexed u -> Forall lx u.
Proof. intros H. eapply Forall_impl; [|exact H]. intros t Ht. now left. Qed.

Ltac assoc := repeat (rewrite <- app_assoc; cbn [app]).

Lemma enc_alpha : memb T_EOF (alphabet (Nt R_encodedWord)) = false. Proof. vm_compute. reflexivity. Qed.

(** one encoded word and part of the gap after it *)
Lemma enc_step e u w g r V f w' : opt_cfws u -> lang (Nt R_encodedWord) w -> Forall lexed w -> opt_cfws g -> solid r -> Forall lx (u ++ w ++ g ++ r) ->
  sel g_enc1 V (u ++ w ++ g ++ r) f w' ->
  exists v z, g = v ++ z /\ w' = z ++ r /\ opt_cfws z /\ forall s, feeds e (NWord s) f = NWord (s ++ enc_of e w).
Proof.
  intros U L Lw G Sr F S. cbn [g_enc1 seqs] in S. apply sel_sound in S as [D Y].
  apply derives_seq in D as (f1 & f2 & -> & D1 & D). apply derives_seq in D as (f3 & f4 & -> & D3 & D4).
  apply derives_nt in D3 as (ch & -> & D3). rewrite !yields_app, yields_node in Y.
  assert (L3 : lang (Nt R_encodedWord) (yields ch)) by now apply lang_body.
  assert (O1 : opt_cfws (yields f1)) by (exists f1; auto). assert (O4 : opt_cfws (yields f4)) by (exists f4; auto).
  replace ((yields f1 ++ yields ch ++ yields f4) ++ w') with (yields f1 ++ yields ch ++ yields f4 ++ w') in Y by now assoc.
  destruct (gap_whole u (w ++ g ++ r) (yields f1) (yields ch ++ yields f4 ++ w')) as [-> E]; auto; try now apply encoded_solid.
  apply lx_app in F as [_ F].
  destruct (encoded_code w (yields ch) (g ++ r) (yields f4 ++ w')) as [Ew E']; auto.
  { rewrite E in F. eapply lx_lexed; [exact L3 | exact F | apply enc_alpha]. }
  apply lx_app in F as [_ F]. destruct (gap_part g r (yields f4) w') as (z & -> & -> & Z); auto.
  exists (yields f4), z. split; [reflexivity|]. split; [reflexivity|]. split; [exact Z|]. intros s.
  rewrite !feeds_app, (feeds_cfws e _ f1) by (ign || assumption). rewrite feeds_one, feed_encoded. cbn [give].
  rewrite (feeds_cfws e _ f4) by (ign || assumption). unfold enc_of. now rewrite Ew.
Qed.

Lemma no_enc_sel u r V f w' : opt_cfws u -> solid r -> no_encoded r -> Forall lx (u ++ r) -> sel g_enc1 V (u ++ r) f w' -> False.
Proof.
  intros U S N F H. apply sel_sound in H as [D Y]. assert (L : lang g_enc1 (yields f)) by (exists f; auto).
  apply lang_enc1 in L as (u1 & e1 & u1' & E & U1 & E1 & _). rewrite E in Y.
  replace ((u1 ++ e1 ++ u1') ++ w') with (u1 ++ e1 ++ u1' ++ w') in Y by now assoc.
  destruct (gap_whole u r u1 (e1 ++ u1' ++ w')) as [_ K]; auto; [now apply encoded_solid|]. eapply N; eauto.
Qed.

Lemma encs_star_sel e V r ws : eok ws -> good V r -> solid r -> no_encoded r -> forall u f w', opt_cfws u -> Forall lx (u ++ etext ws ++ r) ->
  sel (Star g_enc1) V (u ++ etext ws ++ r) f w' ->
  exists z, w' = z ++ r /\ opt_cfws z /\ forall s, feeds e (NWord s) f = NWord (s ++ flat_map (fun p => enc_of e (fst p)) ws).
Proof.
  intros H G Sr N. induction H as [|[w g] ws (A & B & C) H IH]; intros u f w' U F S.
  - cbn [etext flat_map app] in *. inversion S as [| | | | | |? ? ? f1 w1 f2 ? Vi S1 S2|? ? ? Vi]; subst.
    + exfalso. eapply no_enc_sel; [exact U | exact Sr | exact N | exact F | exact S1].
    + exists u. split; [reflexivity|]. split; [exact U|]. intros s. now rewrite app_nil_r.
  - rewrite etext_cons in F, S. rewrite <- !app_assoc in F, S. inversion S as [| | | | | |? ? ? f1 w1 f2 ? Vi S1 S2|? ? ? Vi]; subst.
    + destruct (enc_step e u w g (etext ws ++ r) _ f1 w1 U A B C (etext_solid _ _ H Sr) F S1) as (v & z & Eg & -> & Z & F1).
      destruct (IH z f2 w' Z) as (z2 & -> & Z2 & F2); [|exact S2|].
      * apply lx_app in F as [_ F]. apply lx_app in F as [_ F]. rewrite Eg, <- app_assoc in F. now apply lx_app in F as [_ F].
      * exists z2. split; [reflexivity|]. split; [exact Z2|]. intros s. rewrite feeds_app, F1, F2. cbn [flat_map fst]. now rewrite <- app_assoc.
    + exfalso. apply Vi. exists (u ++ w ++ g), (etext ws ++ r). split; [now assoc|]. split; [now apply lang_enc1_i|]. apply (good_encs V r ws G H [] no_gap).
Qed.

(** ** Words *)
(** what the first encoded words of a list are *)
Lemma split_encs L y : lok L y -> exists ws L2, L = map (fun '(w, g) => (TEnc w, g)) ws ++ L2 /\ eok ws /\ lok L2 y /\
  match L2 with (TEnc _, _) :: _ => False | _ => True end.
Proof.
  induction L as [|[i g] L IH]; intros K.
  - exists [], []. repeat split; auto. constructor.
  - destruct K as (I & G & Lx & X & K). destruct i as [w|a|q v].
    + destruct (IH K) as (ws & L2 & -> & E & K2 & N). exists ((w, g) :: ws), L2. split; [reflexivity|]. split; [constructor; auto|]. auto.
    + exists [], ((TAtom a, g) :: L). split; [reflexivity|]. split; [constructor|]. split; [cbn [lok]; auto | exact Logic.I].
    + exists [], ((TQuo q v, g) :: L). split; [reflexivity|]. split; [constructor|]. split; [cbn [lok]; auto | exact Logic.I].
Qed.

Lemma ltext_encs ws : ltext (map (fun '(w, g) => (TEnc w, g)) ws) = etext ws.
Proof. induction ws as [|[w g] ws IH]; [reflexivity|]. cbn [map]. rewrite ltext_cons, etext_cons. cbn [tword]. now rewrite IH. Qed.

Definition no_start (y : word) : Prop := match y with t :: _ => memb (tt t) word_start = false | [] => True end.

Lemma no_encoded_rest L y : lok L y -> (match L with (TEnc _, _) :: _ => False | _ => True end) -> no_start y -> no_encoded (ltext L ++ y).
Proof.
  intros K N Y e x E H. destruct (encoded_head e E) as (a & b & e' & -> & Ea & Eb). destruct L as [|[i g] L].
  - cbn [ltext flat_map app] in H. rewrite H in Y. cbn in Y. rewrite Ea in Y. discriminate.
  - rewrite ltext_cons in H. destruct K as (I & G & Lx & X & K). destruct i as [w|at_|q v]; [contradiction| |].
    + cbn [tword tit_ok] in *. destruct I as [I NI]. destruct at_ as [|t1 [|t2 rest]].
      * apply atom_head in I as (? & ? & ? & _). discriminate.
      * cbn [app] in H. injection H as -> H. rewrite <- app_assoc in H. rewrite H in X. cbn [not_atext] in X. apply X. rewrite Eb. apply memb_In. reflexivity.
      * cbn [app] in H. injection H as -> -> H. cbn [no_enc_start] in NI. auto.
    + cbn [tword tit_ok] in *. destruct I as [I _]. destruct (quoted_head q I) as (t & q' & -> & Et). cbn [app] in H. injection H as -> _. rewrite Ea in Et. discriminate.
Qed.

Definition tvalue (e : wenv) (i : tit) : gostring :=
  match i with TEnc w => enc_of e w | TAtom a => text a | TQuo _ v => v end.

Lemma feeds_wordnode e n ch v : feeds e (NWord []) ch = NWord v -> feeds e (NDisplayName n false) [Node R_word ch] = NDisplayName (glue n false v) false.
Proof. intros F. rewrite (feeds_node e _ R_word ch (NWord []) None) by reflexivity. rewrite F. now destruct n. Qed.

Lemma plus_enc_sel e V w g ws r u f w' : eok ((w, g) :: ws) -> good V r -> solid r -> no_encoded r -> opt_cfws u -> Forall lx (u ++ etext ((w, g) :: ws) ++ r) ->
  sel (Plus g_enc1) V (u ++ etext ((w, g) :: ws) ++ r) f w' ->
  exists z, w' = z ++ r /\ opt_cfws z /\ forall s, feeds e (NWord s) f = NWord (s ++ flat_map (fun p => enc_of e (fst p)) ((w, g) :: ws)).
Proof.
  intros H G Sr N U F S. pose proof (Forall_inv H) as (A & B & C). pose proof (Forall_inv_tail H) as H'. rewrite etext_cons in F, S. rewrite <- !app_assoc in F, S.
  inversion S as [| | |? ? ? ? f1 w1 f2 ? S1 S2| | | |]; subst.
  destruct (enc_step e u w g (etext ws ++ r) _ f1 w1 U A B C (etext_solid _ _ H' Sr) F S1) as (v & z & Eg & -> & Z & F1).
  destruct (encs_star_sel e V r ws H' G Sr N z f2 w' Z) as (z2 & -> & Z2 & F2); [|exact S2|].
  - apply lx_app in F as [_ F]. apply lx_app in F as [_ F]. rewrite Eg, <- app_assoc in F. now apply lx_app in F as [_ F].
  - exists z2. split; [reflexivity|]. split; [exact Z2|]. intros s. rewrite feeds_app, F1, F2. cbn [flat_map fst]. now rewrite <- app_assoc.
Qed.

(** a word made of encoded words *)
Lemma enc_word_sel e V w g ws r u f w' : eok ((w, g) :: ws) -> good V r -> solid r -> no_encoded r -> opt_cfws u -> Forall lx (u ++ etext ((w, g) :: ws) ++ r) ->
  sel (Nt R_word) V (u ++ etext ((w, g) :: ws) ++ r) f w' ->
  exists z, w' = z ++ r /\ opt_cfws z /\
    forall n, feeds e (NDisplayName n false) f = NDisplayName (glue n false (flat_map (fun p => enc_of e (fst p)) ((w, g) :: ws))) false.
Proof.
  intros H G Sr N U F S. inversion S as [| |? ? ? ch ? Sw| | | | |]; subst. change (body R_word) with g_word in Sw. unfold g_word in Sw. cbn [alts] in Sw.
  assert (X : forall v, V v \/ True) by auto. clear X.
  inversion Sw as [| | | |? ? ? ? ? ? HVi S1|? ? ? ? ? ? HVi S1| |]; subst; clear Sw.
  - destruct (plus_enc_sel e V w g ws r u ch w' H G Sr N U F S1) as (z & -> & Z & Fz). exists z. split; [reflexivity|]. split; [exact Z|]. intros n.
    apply feeds_wordnode. apply (Fz []).
  - exfalso. apply HVi. pose proof (Forall_inv H) as (A & B & C). pose proof (Forall_inv_tail H) as H'. destruct (good_encs V r ws G H' [] no_gap) as (x & v & E & Lx & Hv). cbn [app] in E.
    exists ((u ++ w ++ g) ++ x), v. split; [rewrite etext_cons; assoc; now rewrite E|]. split; [|exact Hv]. apply lang_seq_i; [now apply lang_enc1_i | exact Lx].
Qed.

Lemma no_enc_word u r V f w' : opt_cfws u -> solid r -> no_encoded r -> Forall lx (u ++ r) -> sel (Plus g_enc1) V (u ++ r) f w' -> False.
Proof.
  intros U S N F H. inversion H as [| | |? ? ? ? f1 w1 f2 ? S1 S2| | | |]; subst. eapply no_enc_sel; [exact U | exact S | exact N | exact F | exact S1].
Qed.

Definition g_aword (a : rule) : gexp := seqs [Opt (Nt R_cfws); Nt a; Opt (Nt R_cfws)].

(** an atom or quoted string, and part of the gap after it *)
Lemma atom_seq_sel e V a g r u f w' : good V r -> solid r -> not_atext (g ++ r) -> opt_cfws u -> lang (Nt R_atom) a -> opt_cfws g -> Forall lx (u ++ a ++ g ++ r) ->
  sel (g_aword R_atom) V (u ++ a ++ g ++ r) f w' ->
  exists v z, g = v ++ z /\ w' = z ++ r /\ opt_cfws z /\ feeds e (NWord []) f = NWord (text a).
Proof.
  intros G Sr NA U A Gg F S. cbn [g_aword seqs] in S. inversion S as [| | |? ? ? ? f1 w1 f2 ? T1 T2| | | |]; subst.
  inversion T2 as [| | |? ? ? ? f3 w3 f4 ? T3 T4| | | |]; subst. apply sel_sound in T1 as [D1 Y1]. apply sel_sound in T4 as [D4 Y4].
  inversion T3 as [| |? ? ? fa ? T5| | | | |]; subst. assert (D3 := proj1 (sel_sound _ _ _ _ _ T5)). assert (Y3 := proj2 (sel_sound _ _ _ _ _ T5)).
  assert (O1 : opt_cfws (yields f1)) by (exists f1; auto). assert (O4 : opt_cfws (yields f4)) by (exists f4; auto).
  assert (LA : lang (Nt R_atom) (yields fa)) by now apply lang_body.
  destruct (atom_head _ A) as (ta & a' & Ea & Ha). destruct (atom_head _ LA) as (tb & b' & Eb & Hb).
  assert (Sa : solid (a ++ g ++ r)) by (rewrite Ea; cbn [app solid]; now apply word_start_solid, word_start_i).
  assert (Sb : solid w1) by (rewrite Y3, Eb; cbn [app solid]; now apply word_start_solid, word_start_i).
  destruct (gap_whole u (a ++ g ++ r) (yields f1) w1) as [-> E]; auto. rewrite Y3 in E.
  change (body R_atom) with (Plus (Nt R_atext)) in T5. pose proof (plus_stops _ _ _ _ _ T5) as St.
  apply lang_nt in A. change (body R_atom) with (Plus (Nt R_atext)) in A. apply plus_single in A as [_ A]; [|reflexivity].
  apply lang_nt in LA. change (body R_atom) with (Plus (Nt R_atext)) in LA. apply plus_single in LA as [_ LA]; [|reflexivity].
  assert (EE : a = yields fa /\ g ++ r = yields f4 ++ w').
  { destruct (app_cases _ _ _ _ E) as [(z & Ez & K)|(z & Ez & K)].
    - destruct z as [|t z]; [rewrite app_nil_r in Ez; cbn [app] in K; auto|]. exfalso. apply St. rewrite K. cbn [app].
      rewrite Ez in A. apply Forall_app in A as [_ A]. inversion A as [|? ? At Az]; subst. exists [t], (z ++ g ++ r). split; [reflexivity|].
      split; [now apply single_lang_i|]. exists z, (g ++ r). split; [reflexivity|]. split; [now apply star_single_i|].
      exists [], (g ++ r). split; [reflexivity|]. split; [apply lang_opt_none | now apply G].
    - destruct z as [|t z]; [rewrite app_nil_r in Ez; cbn [app] in K; auto|]. exfalso. rewrite K in NA. apply NA.
      rewrite Ez in LA. apply Forall_app in LA as [_ LA]. now inversion LA. }
  destruct EE as [EA EG]. apply lx_app in F as [_ F]. apply lx_app in F as [_ F].
  destruct (gap_part g r (yields f4) w') as (z & -> & -> & Z); auto.
  exists (yields f4), z. split; [reflexivity|]. split; [reflexivity|]. split; [exact Z|].
  rewrite !feeds_app, (feeds_cfws e _ f1) by (ign || assumption). rewrite feeds_one, feed_atom. cbn [give].
  rewrite (feeds_cfws e _ f4) by (ign || assumption). now rewrite EA.
Qed.

Lemma quo_alpha : memb T_EOF (alphabet (Nt R_quotedString)) = false. Proof. vm_compute. reflexivity. Qed.

Lemma quoted_seq_sel e V q v g r u f w' : solid r -> opt_cfws u -> lang (Nt R_quotedString) q -> r_qstring q v -> Forall lexed q -> opt_cfws g -> Forall lx (u ++ q ++ g ++ r) ->
  sel (g_aword R_quotedString) V (u ++ q ++ g ++ r) f w' ->
  exists x z, g = x ++ z /\ w' = z ++ r /\ opt_cfws z /\ feeds e (NWord []) f = NWord v.
Proof.
  intros Sr U A Q Lq Gg F S. cbn [g_aword seqs] in S. apply sel_sound in S as [D Y].
  apply derives_seq in D as (f1 & f2 & -> & D1 & D). apply derives_seq in D as (f3 & f4 & -> & D3 & D4). apply derives_nt in D3 as (ch & -> & D3).
  rewrite !yields_app, yields_node in Y. replace ((yields f1 ++ yields ch ++ yields f4) ++ w') with (yields f1 ++ yields ch ++ yields f4 ++ w') in Y by now assoc.
  assert (O1 : opt_cfws (yields f1)) by (exists f1; auto). assert (O4 : opt_cfws (yields f4)) by (exists f4; auto).
  assert (LA : lang (Nt R_quotedString) (yields ch)) by now apply lang_body.
  destruct (quoted_head _ A) as (ta & a' & Ea & Ha). destruct (quoted_head _ LA) as (tb & b' & Eb & Hb).
  destruct (gap_whole u (q ++ g ++ r) (yields f1) (yields ch ++ yields f4 ++ w')) as [-> E]; auto.
  { rewrite Ea. cbn [app solid]. now rewrite Ha. }
  { rewrite Eb. cbn [app solid]. now rewrite Hb. }
  apply lx_app in F as [_ F]. destruct (den_qstring e ch D3) as (v' & Fv & Rv).
  destruct (qstring_code q (yields ch) v v' (g ++ r) (yields f4 ++ w')) as (Eq & E' & <-); auto.
  { rewrite E in F. eapply lx_lexed; [exact LA | exact F | apply quo_alpha]. }
  apply lx_app in F as [_ F]. destruct (gap_part g r (yields f4) w') as (z & -> & -> & Z); auto.
  exists (yields f4), z. split; [reflexivity|]. split; [reflexivity|]. split; [exact Z|].
  rewrite !feeds_app, (feeds_cfws e _ f1) by (ign || assumption). rewrite (feeds_node e _ R_quotedString ch (NQuotedString []) None) by reflexivity. rewrite Fv. cbn [give].
  now rewrite (feeds_cfws e _ f4) by (ign || assumption).
Qed.

Lemma other_word_sel e V i g r u f w' : is_tenc i = false -> tit_ok i -> Forall lexed (tword i) -> opt_cfws g -> (match i with TAtom _ => not_atext (g ++ r) | _ => True end) ->
  good V r -> solid r -> no_encoded (tword i ++ g ++ r) -> opt_cfws u -> Forall lx (u ++ tword i ++ g ++ r) ->
  sel (Nt R_word) V (u ++ tword i ++ g ++ r) f w' ->
  exists v z, g = v ++ z /\ w' = z ++ r /\ opt_cfws z /\
    forall n, feeds e (NDisplayName n false) f = NDisplayName (glue n false (tvalue e i)) false.
Proof.
  intros Hi I Lx Gg NA G Sr N U F S. inversion S as [| |? ? ? ch ? Sw| | | | |]; subst. change (body R_word) with g_word in Sw. unfold g_word in Sw. cbn [alts] in Sw.
  destruct (tit_head i I) as (t0 & x0 & E0 & K0).
  assert (Si : solid (tword i ++ g ++ r)) by (rewrite E0; cbn [app solid]; now apply word_start_solid).
  inversion Sw as [| | | |? ? ? ? ? ? HVi S1|? ? ? ? ? ? HVi S1| |]; subst; clear Sw; [exfalso; eapply no_enc_word; [exact U | exact Si | exact N | exact F | exact S1]|].
  inversion S1 as [| | | |? ? ? ? ? ? HVj S2|? ? ? ? ? ? HVj S2| |]; subst; clear S1.
  - destruct i as [w|a|q v]; [discriminate| |]; cbn [tword tit_ok tvalue] in *.
    + destruct (atom_seq_sel e V a g r u ch w' G Sr NA U (proj1 I) Gg F S2) as (v & z & -> & -> & Z & Fz). exists v, z.
      split; [reflexivity|]. split; [reflexivity|]. split; [exact Z|]. intros n. now apply feeds_wordnode.
    + exfalso. apply sel_sound in S2 as [D Y]. cbn [seqs] in D. apply derives_seq in D as (f1 & f2 & -> & D1 & D). apply derives_seq in D as (f3 & f4 & -> & D3 & D4).
      apply derives_nt in D3 as (c & -> & D3). rewrite !yields_app, yields_node in Y.
      replace ((yields f1 ++ yields c ++ yields f4) ++ w') with (yields f1 ++ yields c ++ yields f4 ++ w') in Y by now assoc.
      assert (LA : lang (Nt R_atom) (yields c)) by now apply lang_body. destruct (atom_head _ LA) as (tb & b' & Eb & Hb).
      destruct (gap_whole u (q ++ g ++ r) (yields f1) (yields c ++ yields f4 ++ w')) as [_ E]; auto.
      { exists f1; auto. }
      { rewrite Eb. cbn [app solid]. now apply word_start_solid, word_start_i. }
      destruct I as [I _]. destruct (quoted_head _ I) as (ta & a' & Ea & Ha). rewrite Ea, Eb in E. cbn [app] in E. injection E as -> _. rewrite Ha in Hb.
      apply memb_In in Hb. discriminate.
  - destruct i as [w|a|q v]; [discriminate| |]; cbn [tword tit_ok tvalue] in *.
    + exfalso. apply sel_sound in S2 as [D Y]. cbn [seqs] in D. apply derives_seq in D as (f1 & f2 & -> & D1 & D). apply derives_seq in D as (f3 & f4 & -> & D3 & D4).
      apply derives_nt in D3 as (c & -> & D3). rewrite !yields_app, yields_node in Y.
      replace ((yields f1 ++ yields c ++ yields f4) ++ w') with (yields f1 ++ yields c ++ yields f4 ++ w') in Y by now assoc.
      assert (LA : lang (Nt R_quotedString) (yields c)) by now apply lang_body. destruct (quoted_head _ LA) as (tb & b' & Eb & Hb).
      destruct (gap_whole u (a ++ g ++ r) (yields f1) (yields c ++ yields f4 ++ w')) as [_ E]; auto.
      { exists f1; auto. }
      { rewrite Eb. cbn [app solid]. now rewrite Hb. }
      destruct I as [I _]. destruct (atom_head _ I) as (ta & a' & Ea & Ha). rewrite Ea, Eb in E. cbn [app] in E. injection E as -> _. rewrite Hb in Ha.
      apply memb_In in Ha. discriminate.
    + destruct (quoted_seq_sel e V q v g r u ch w' Sr U (proj1 I) (proj2 I) Lx Gg F S2) as (x & z & -> & -> & Z & Fz). exists x, z.
      split; [reflexivity|]. split; [reflexivity|]. split; [exact Z|]. intros n. now apply feeds_wordnode.
Qed.

(** ** Display names *)
Fixpoint nv (e : wenv) (n : gostring) (pe : bool) (L : list (tit * word)) : gostring :=
  match L with
  | [] => n
  | (i, _) :: L' => nv e (if pe && is_tenc i then n ++ tvalue e i else glue n false (tvalue e i)) (is_tenc i) L'
  end.

Lemma nv_encs e ws : forall n L, nv e n true (map (fun '(w, g) => (TEnc w, g)) ws ++ L) = nv e (n ++ flat_map (fun p => enc_of e (fst p)) ws) true L.
Proof.
  induction ws as [|[w g] ws IH]; intros n L; [cbn [map app flat_map]; now rewrite app_nil_r|].
  cbn [map app nv is_tenc andb tvalue]. rewrite IH. cbn [flat_map fst]. now rewrite <- app_assoc.
Qed.

Lemma nv_other e n b L : (match L with (TEnc _, _) :: _ => False | _ => True end) -> nv e n b L = nv e n false L.
Proof. destruct L as [|[[w|a|q v] g] L]; [reflexivity | contradiction | |]; intros _; cbn [nv is_tenc]; now rewrite !andb_false_r. Qed.

Lemma nv_words e n w g ws L : (match L with (TEnc _, _) :: _ => False | _ => True end) ->
  nv e n false (map (fun '(w, g) => (TEnc w, g)) ((w, g) :: ws) ++ L) = nv e (glue n false (flat_map (fun p => enc_of e (fst p)) ((w, g) :: ws))) false L.
Proof.
  intros N. cbn [map app nv is_tenc andb tvalue]. rewrite nv_encs, nv_other by exact N. cbn [flat_map fst]. now rewrite glue_app.
Qed.

Lemma no_word_sel u y V f w' : opt_cfws u -> solid y -> no_start y -> Forall lx (u ++ y) -> sel (Nt R_word) V (u ++ y) f w' -> False.
Proof.
  intros U Sy N F S. apply sel_sound in S as [D Y]. assert (L : lang (Nt R_word) (yields f)) by (exists f; auto).
  apply word_shape in L as (u1 & t & r & E & U1 & K). rewrite E in Y. replace ((u1 ++ t :: r) ++ w') with (u1 ++ t :: (r ++ w')) in Y by now assoc.
  destruct (gap_whole u y u1 (t :: r ++ w')) as [_ X]; auto; [cbn [solid]; now apply word_start_solid|]. rewrite X in N. cbn in N. unfold word_start in *. cbn in K. congruence.
Qed.

(** a first word, and what is left *)
Lemma word_sel e W y L u f w' : lok L y -> L <> [] -> good W y -> solid y -> no_start y -> opt_cfws u -> Forall lx (u ++ ltext L ++ y) ->
  sel (Nt R_word) (viable (Star (Nt R_word)) W) (u ++ ltext L ++ y) f w' ->
  exists L2 z, w' = z ++ ltext L2 ++ y /\ opt_cfws z /\ lok L2 y /\ length L2 < length L /\ Forall lx (z ++ ltext L2 ++ y) /\
    forall n, exists n', feeds e (NDisplayName n false) f = NDisplayName n' false /\ nv e n false L = nv e n' false L2.
Proof.
  intros K NL G Sy NY U F S. assert (F' : Forall lx w'). { apply sel_sound in S as [_ S]. rewrite S in F. now apply lx_app in F as [_ F]. }
  destruct (split_encs L y K) as (ws & L2 & -> & E & K2 & N).
  assert (Gr : good (viable (Star (Nt R_word)) W) (ltext L2 ++ y)) by now apply good_words.
  assert (Sr := solid_items L2 y K2 Sy). assert (Nr := no_encoded_rest L2 y K2 N NY).
  destruct ws as [|[w g] ws].
  - cbn [map app] in *. destruct L2 as [|[i g] L2]; [congruence|]. destruct K2 as (I & Gg & Lx & X & K2).
    rewrite ltext_cons in F, S, Nr. rewrite <- !app_assoc in F, S, Nr.
    destruct (other_word_sel e (viable (Star (Nt R_word)) W) i g (ltext L2 ++ y) u f w') as (v & z & Eg & -> & Z & Fz); auto.
    { destruct i; [contradiction | reflexivity | reflexivity]. }
    { now apply good_words. }
    { now apply solid_items. }
    exists L2, z. split; [reflexivity|]. split; [exact Z|]. split; [exact K2|]. split; [cbn; lia|]. split; [exact F'|].
    intros n. eexists. split; [apply Fz|]. cbn [nv andb]. destruct i; [contradiction | |]; reflexivity.
  - rewrite ltext_app, ltext_encs, <- app_assoc in F, S.
    destruct (enc_word_sel e _ w g ws (ltext L2 ++ y) u f w' E Gr Sr Nr U F S) as (z & -> & Z & Fz).
    exists L2, z. split; [reflexivity|]. split; [exact Z|]. split; [exact K2|]. split; [rewrite app_length; cbn; lia|]. split; [exact F'|].
    intros n. eexists. split; [apply Fz|]. now apply nv_words.
Qed.

Lemma words_sel e W y : good W y -> solid y -> no_start y -> forall k L u f w', length L <= k -> lok L y -> opt_cfws u -> Forall lx (u ++ ltext L ++ y) ->
  sel (Star (Nt R_word)) W (u ++ ltext L ++ y) f w' ->
  exists z, w' = z ++ y /\ opt_cfws z /\ forall n, feeds e (NDisplayName n false) f = NDisplayName (nv e n false L) false.
Proof.
  intros G Sy NY. induction k as [|k IH]; intros L u f w' Hk K U F S.
  - destruct L; [|cbn in Hk; lia]. cbn [ltext flat_map app] in *. inversion S as [| | | | | |? ? ? f1 w1 f2 ? Vi S1 S2|? ? ? Vi]; subst.
    + exfalso. eapply no_word_sel; [exact U | exact Sy | exact NY | exact F | exact S1].
    + exists u. split; [reflexivity|]. split; [exact U|]. reflexivity.
  - destruct L as [|p L]; [apply (IH [] u f w'); auto; cbn; lia|].
    inversion S as [| | | | | |? ? ? f1 w1 f2 ? Vi S1 S2|? ? ? Vi]; subst.
    + destruct (word_sel e W y (p :: L) u f1 w1 K) as (L2 & z & -> & Z & K2 & HL & F2 & Fz); auto; [discriminate|].
      destruct (IH L2 z f2 w') as (z2 & -> & Z2 & Fz2); auto; [cbn in *; lia|].
      exists z2. split; [reflexivity|]. split; [exact Z2|]. intros n. rewrite feeds_app. destruct (Fz n) as (n' & -> & ->). apply Fz2.
    + exfalso. apply Vi. destruct p as [i g]. destruct K as (I & Gg & Lx & X & K). exists (u ++ tword i ++ g), (ltext L ++ y).
      split; [rewrite ltext_cons; now assoc|]. split; [now apply word_i|]. apply (good_words W y G L K [] no_gap).
Qed.

(** A display name: what is left is part of the gap before what follows. *)
Lemma display_sel e W y L u f w' : good W y -> solid y -> no_start y -> lok L y -> L <> [] -> opt_cfws u -> Forall lx (u ++ ltext L ++ y) ->
  sel (Nt R_displayName) W (u ++ ltext L ++ y) f w' ->
  exists z, w' = z ++ y /\ opt_cfws z /\ exists ch, f = [Node R_displayName ch] /\ feeds e (NDisplayName [] false) ch = NDisplayName (nv e [] false L) false.
Proof.
  intros G Sy NY K NL U F S. inversion S as [| |? ? ? ch ? Sw| | | | |]; subst. change (body R_displayName) with g_displayName in Sw. unfold g_displayName in Sw. cbn [alts] in Sw.
  inversion Sw as [| | | |? ? ? ? ? ? HVi S1|? ? ? ? ? ? HVi S1| |]; subst; clear Sw.
  - inversion S1 as [| | |? ? ? ? f1 w1 f2 ? T1 T2| | | |]; subst.
    destruct (word_sel e W y L u f1 w1 K) as (L2 & z & -> & Z & K2 & HL & F2 & Fz); auto.
    destruct (words_sel e W y G Sy NY (length L2) L2 z f2 w') as (z2 & -> & Z2 & Fz2); auto.
    exists z2. split; [reflexivity|]. split; [exact Z2|]. eexists. split; [reflexivity|]. rewrite feeds_app. destruct (Fz []) as (n' & -> & ->). apply Fz2.
  - exfalso. apply HVi. destruct L as [|[i g] L]; [congruence|]. destruct K as (I & Gg & Lx & X & K).
    destruct (good_words W y G L K [] no_gap) as (x & v & E & Ls & Hv). cbn [app] in E. exists ((u ++ tword i ++ g) ++ x), v.
    split; [rewrite ltext_cons; assoc; now rewrite E|]. split; [|exact Hv]. apply lang_seq_i; [now apply word_i | exact Ls].
Qed.
