(** The generated lexer: what its network reads (parser/rfc5322_lexer.go). *)
From Coq Require Import List NArith ZArith Bool Arith Lia FMapPositive.
From Verif Require Import Lexer Utf8 LexFacts CharFacts DateSpec GenAtn GenRun.
Import ListNotations.

(** ** Model: the lexer's network
    BaseLexer.NextToken and the lexer's simulator are in the ANTLR runtime: from the start state of the
    mode, take the longest non-empty prefix of the input that some rule reads, and of the rules that read
    it the first one. *)
(* /repo: parser/rfc5322_lexer.go:202-203; simulator in the ANTLR runtime *)
Definition ledges (s : N) : list edge := match get (a_edges lexer_atn) s with Some l => l | None => [] end.
(* /repo: parser/rfc5322_lexer.go:202-203; simulator in the ANTLR runtime *)
Definition lstop (s : N) : bool := match get (a_types lexer_atn) s with Some t => N.eqb t 7 | None => false end.

(** [lread s u]: from state [s], the network reads exactly the characters [u] and stops. *)
(* /repo: parser/rfc5322_lexer.go:202-203; simulator in the ANTLR runtime *)
Inductive lread : N -> list rune -> Prop :=
| lr_stop : forall s, lstop s = true -> lread s []
| lr_eps : forall s t u, In (EEps t) (ledges s) -> lread t u -> lread s u
| lr_tok : forall s rs t c u, In (ETok rs t) (ledges s) -> in_ranges (Z.of_N c) rs = true -> lread t u -> lread s (c :: u).

(** The start state of the (only) mode; rule number [i] is its [i]-th transition and yields the token type
    recorded for that rule. *)
(* /repo: parser/rfc5322_lexer.go:202-203; simulator in the ANTLR runtime *)
Definition mode_start : N := hd 0%N (a_modes lexer_atn).

(* /repo: parser/rfc5322_lexer.go:202-203; simulator in the ANTLR runtime *)
Definition rule_reads (i : nat) (u : list rune) (t : ttype) : Prop :=
  exists s, nth_error (ledges mode_start) i = Some (EEps s) /\ lread s u /\ nth_error (a_starts lexer_atn) i = Some (s, Z.of_N t).

(** The first token of [rs]: type [t], text [u], and what is left. *)
(* /repo: parser/rfc5322_lexer.go:202-203; simulator in the ANTLR runtime *)
Definition lexeme (rs : list rune) (t : ttype) (u rest : list rune) : Prop :=
  exists i, rs = u ++ rest /\ u <> [] /\ rule_reads i u t /\
    forall j u' rest' t', rs = u' ++ rest' -> u' <> [] -> rule_reads j u' t' ->
      length u' <= length u /\ (length u' = length u -> i <= j).

(** The tokens of an input; [m]: what happens to a character that starts no token (see Lexer.recovery). *)
(* /repo: parser/rfc5322_lexer.go:202-203; simulator in the ANTLR runtime *)
Inductive scans (m : recovery) : list rune -> list tok -> Prop :=
| sc_end : scans m [] [eof_tok]
| sc_tok : forall rs t c rest w, lexeme rs t [c] rest -> scans m rest w -> scans m rs (mkTok t c :: w)
| sc_bad : forall c rest w, (forall t u rest', ~ lexeme (c :: rest) t u rest') -> scans m rest w ->
    scans m (c :: rest) (match m with SkipBad => w | EmitBad => mkTok T_Invalid c :: w end).

(** ** Facts *)

(** Each rule reads one character: the ranges of rule [i]. *)
Definition row (i : nat) : option (ttype * list (Z * Z)) :=
  match nth_error (ledges mode_start) i, nth_error (a_starts lexer_atn) i with
  | Some (EEps s), Some (s', t) =>
      if N.eqb s s' && (0 <=? t)%Z then
        match ledges s with
        | [EEps a] => match ledges a with
            | [ETok rs b] => match ledges b with
                | [EEps e] => match ledges e with
                    | [] => if lstop e && negb (lstop s) && negb (lstop a) && negb (lstop b) then Some (Z.to_N t, rs) else None
                    | _ => None end
                | _ => None end
            | _ => None end
        | _ => None end
      else None
  | _, _ => None
  end.

Definition rows : list (ttype * list (Z * Z)) := Eval vm_compute in
  flat_map (fun i => match row i with Some x => [x] | None => [] end) (seq 0 70).

Definition range_eqb (a b : Z * Z) : bool := Z.eqb (fst a) (fst b) && Z.eqb (snd a) (snd b).
Fixpoint ranges_eqb (a b : list (Z * Z)) : bool :=
  match a, b with [], [] => true | x :: a', y :: b' => range_eqb x y && ranges_eqb a' b' | _, _ => false end.

Lemma rows_ok : Nat.eqb (length (ledges mode_start)) 70 && Nat.eqb (length rows) 70 &&
  forallb (fun i => match row i, nth_error rows i with
                    | Some (t, rs), Some (t', rs') => N.eqb t t' && ranges_eqb rs rs' | _, _ => false end) (seq 0 70) = true.
Proof. vm_compute. reflexivity. Qed.

Lemma ranges_eqb_eq a : forall b, ranges_eqb a b = true -> a = b.
Proof.
  induction a as [|[x y] a IH]; intros [|[x' y'] b] H; try discriminate; [reflexivity|]. cbn in H.
  apply andb_true_iff in H. destruct H as [H1 H2]. unfold range_eqb in H1. cbn in H1. apply andb_true_iff in H1. destruct H1 as [H0 H1].
  apply Z.eqb_eq in H0, H1. rewrite (IH _ H2). subst. reflexivity.
Qed.

Lemma rule_reads_row i u t : rule_reads i u t <-> exists c rs, u = [c] /\ nth_error rows i = Some (t, rs) /\ in_ranges (Z.of_N c) rs = true.
Proof.
  pose proof rows_ok as H. apply andb_true_iff in H. destruct H as [H H3]. apply andb_true_iff in H. destruct H as [H1 H2].
  apply Nat.eqb_eq in H1, H2. rewrite forallb_forall in H3.
  assert (R : i < 70 -> exists t0 rs, row i = Some (t0, rs) /\ nth_error rows i = Some (t0, rs)).
  { intros Hi. specialize (H3 i). rewrite in_seq in H3. specialize (H3 ltac:(lia)).
    destruct (row i) as [[t0 rs]|]; [|discriminate]. destruct (nth_error rows i) as [[t1 rs1]|]; [|discriminate].
    apply andb_true_iff in H3. destruct H3 as [E1 E2]. apply N.eqb_eq in E1. apply ranges_eqb_eq in E2. subst. exists t1, rs1. auto. }
  assert (Hlt : i < 70 \/ 70 <= i) by lia. destruct Hlt as [Hi|Hi].
  - destruct (R Hi) as (t0 & rs & E1 & E2). unfold rule_reads. rewrite E2. unfold row in E1.
    destruct (nth_error (ledges mode_start) i) as [[s| |]|]; try discriminate. destruct (nth_error (a_starts lexer_atn) i) as [[s' z]|]; try discriminate.
    destruct (N.eqb s s' && (0 <=? z)%Z) eqn:B0; [|discriminate]. apply andb_true_iff in B0. destruct B0 as [B1 B2]. apply N.eqb_eq in B1. apply Z.leb_le in B2. subst s'.
    destruct (ledges s) as [|[a| |] [|]] eqn:Es; try discriminate. destruct (ledges a) as [|[|rs' b|] [|]] eqn:Ea; try discriminate.
    destruct (ledges b) as [|[e| |] [|]] eqn:Eb; try discriminate. destruct (ledges e) eqn:Ee; try discriminate.
    destruct (lstop e && negb (lstop s) && negb (lstop a) && negb (lstop b)) eqn:B3; [|discriminate]. injection E1 as <- <-.
    apply andb_true_iff in B3. destruct B3 as [B3 Nb]. apply andb_true_iff in B3. destruct B3 as [B3 Na]. apply andb_true_iff in B3. destruct B3 as [Se Ns].
    apply negb_true_iff in Ns, Na, Nb. split.
    + intros (s1 & [= <-] & L & [= E0]). assert (z = Z.of_N t) as Ez by exact E0. subst z. rewrite N2Z.id.
      inversion L as [? X|? t1 ? Hin L1|? ? ? ? ? Hin]; subst; [rewrite Ns in X; discriminate | | rewrite Es in Hin; destruct Hin as [[=]|[]]].
      rewrite Es in Hin. destruct Hin as [[= <-]|[]].
      inversion L1 as [? X|? t1 ? Hin L2|? rs1 t1 c u1 Hin Hr L2]; subst; [rewrite Na in X; discriminate | rewrite Ea in Hin; destruct Hin as [[=]|[]] |].
      rewrite Ea in Hin. destruct Hin as [[= <- <-]|[]].
      inversion L2 as [? X|? t1 ? Hin L3|? ? ? ? ? Hin]; subst; [rewrite Nb in X; discriminate | | rewrite Eb in Hin; destruct Hin as [[=]|[]]].
      rewrite Eb in Hin. destruct Hin as [[= <-]|[]].
      inversion L3 as [|? ? ? Hin|? ? ? ? ? Hin]; subst; [|rewrite Ee in Hin; destruct Hin | rewrite Ee in Hin; destruct Hin].
      exists c, rs'. auto.
    + intros (c & rs & -> & [= <- <-] & Hr). exists s. split; [reflexivity|]. split; [|f_equal; f_equal; symmetry; apply Z2N.id; exact B2].
      apply (lr_eps s a); [rewrite Es; left; reflexivity|]. apply (lr_tok a rs' b); [rewrite Ea; left; reflexivity | exact Hr|].
      apply (lr_eps b e); [rewrite Eb; left; reflexivity|]. apply lr_stop. exact Se.
  - split.
    + intros (s & E & _). assert (nth_error (ledges mode_start) i = None) as Q by (apply nth_error_None; lia). congruence.
    + intros (c & rs & _ & E & _). assert (nth_error rows i = None) as Q by (apply nth_error_None; lia). congruence.
Qed.

(** The first row that contains a character. *)
Fixpoint find_row (c : rune) (l : list (ttype * list (Z * Z))) : option ttype :=
  match l with [] => None | (t, rs) :: l' => if in_ranges (Z.of_N c) rs then Some t else find_row c l' end.

Lemma find_row_nth c l : find_row c l = None /\ (forall i t rs, nth_error l i = Some (t, rs) -> in_ranges (Z.of_N c) rs = false) \/
  exists i t rs, find_row c l = Some t /\ nth_error l i = Some (t, rs) /\ in_ranges (Z.of_N c) rs = true /\
    forall j t' rs', j < i -> nth_error l j = Some (t', rs') -> in_ranges (Z.of_N c) rs' = false.
Proof.
  induction l as [|[t rs] l IH]; [left; split; [reflexivity | intros [|i] ? ? [=]]|]. cbn [find_row].
  destruct (in_ranges (Z.of_N c) rs) eqn:R.
  - right. exists 0, t, rs. split; [reflexivity|]. split; [reflexivity|]. split; [exact R|]. intros; lia.
  - destruct IH as [[E H]|(i & t1 & rs1 & E & H1 & H2 & H3)].
    + left. split; [exact E|]. intros [|i] t' rs' X; cbn in X; [injection X as <- <-; exact R | exact (H i t' rs' X)].
    + right. exists (S i), t1, rs1. split; [exact E|]. split; [exact H1|]. split; [exact H2|].
      intros [|j] t' rs' Hj X; cbn in X; [injection X as <- <-; exact R | apply (H3 j t' rs'); [lia | exact X]].
Qed.

Lemma low_rows : forallb (fun n => match find_row (N.of_nat n) rows, lex_rune (N.of_nat n) with
    | Some a, Some b => N.eqb a b | None, None => true | _, _ => false end) (seq 0 128) = true.
Proof. vm_compute. reflexivity. Qed.

(** Only one row reaches beyond ASCII. *)
Lemma high_rows : forallb (fun x => N.eqb (fst x) T_UTF8NonAscii || forallb (fun r => (snd r <=? 127)%Z) (snd x)) rows &&
  forallb (fun x => negb (N.eqb (fst x) T_UTF8NonAscii) || ranges_eqb (snd x) [(128, 65535)%Z]) rows = true.
Proof. vm_compute. reflexivity. Qed.

Lemma find_row_high c : (128 <= c)%N -> forall l,
  forallb (fun x => N.eqb (fst x) T_UTF8NonAscii || forallb (fun r => (snd r <=? 127)%Z) (snd x)) l &&
  forallb (fun x => negb (N.eqb (fst x) T_UTF8NonAscii) || ranges_eqb (snd x) [(128, 65535)%Z]) l = true ->
  find_row c l = if (c <=? 65535)%N && existsb (fun x => N.eqb (fst x) T_UTF8NonAscii) l then Some T_UTF8NonAscii else None.
Proof.
  intros Hc. induction l as [|[t rs] l IH]; intros H; [rewrite andb_false_r; reflexivity|].
  apply andb_true_iff in H. destruct H as [H1 H2]. cbn [forallb fst snd] in H1, H2.
  apply andb_true_iff in H1. destruct H1 as [H1 H1']. apply andb_true_iff in H2. destruct H2 as [H2 H2'].
  cbn [find_row existsb fst]. destruct (N.eqb t T_UTF8NonAscii) eqn:E.
  - apply N.eqb_eq in E. subst t. cbn [negb orb] in H2. apply ranges_eqb_eq in H2. subst rs.
    unfold in_ranges. cbn [existsb fst snd orb]. rewrite orb_false_r, andb_true_r.
    destruct (N.leb_spec c 65535).
    + destruct (Z.leb_spec 128 (Z.of_N c)); [|lia]. destruct (Z.leb_spec (Z.of_N c) 65535); [reflexivity | lia].
    + destruct (Z.leb_spec (Z.of_N c) 65535); [lia|]. rewrite andb_false_r. rewrite IH by (rewrite H1', H2'; reflexivity).
      destruct (N.leb_spec c 65535); [lia|]. reflexivity.
  - cbn [orb] in H1. assert (R : in_ranges (Z.of_N c) rs = false).
    { unfold in_ranges. destruct (existsb _ rs) eqn:X; [|reflexivity]. apply existsb_exists in X. destruct X as (r & Hr & X).
      rewrite forallb_forall in H1. specialize (H1 r Hr). apply andb_true_iff in X. destruct X as [_ X]. apply Z.leb_le in H1, X. lia. }
    rewrite R. cbn [orb]. apply IH. rewrite H1', H2'. reflexivity.
Qed.

Lemma find_row_lex c : find_row c rows = lex_rune c.
Proof.
  destruct (N.ltb_spec c 128) as [Hc|Hc].
  - pose proof low_rows as H. rewrite forallb_forall in H. specialize (H (N.to_nat c)). rewrite in_seq, N2Nat.id in H. specialize (H ltac:(lia)).
    destruct (find_row c rows), (lex_rune c); try discriminate; [|reflexivity]. apply N.eqb_eq in H. subst. reflexivity.
  - rewrite (find_row_high c Hc rows high_rows). replace (existsb _ rows) with true by (vm_compute; reflexivity). rewrite andb_true_r.
    destruct (bmp c) eqn:B.
    + pose proof (lex_nonascii c Hc B) as E. unfold tok_of in E. cbn [tt] in E. destruct (lex_bmp c B) as [t Et]. rewrite Et in *. subst t.
      unfold bmp in B. rewrite B. reflexivity.
    + rewrite (lex_not_bmp c B). unfold bmp in B. rewrite B. reflexivity.
Qed.

(** The first token of an input is its first character, with the type the grammar gives it. *)
Lemma lexeme_iff c rs t u rest : lexeme (c :: rs) t u rest <-> lex_rune c = Some t /\ u = [c] /\ rest = rs.
Proof.
  rewrite <- find_row_lex. split.
  - intros (i & E & Hu & R & Hmax). apply rule_reads_row in R. destruct R as (c' & rg & -> & Ei & Hr). injection E as <- <-.
    split; [|auto]. destruct (find_row_nth c rows) as [[_ H]|(i0 & t0 & rg0 & F & E0 & R0 & H0)].
    + rewrite (H i t rg Ei) in Hr. discriminate.
    + assert (L : i <= i0).
      { apply (Hmax i0 [c] rs t0); [reflexivity | discriminate | | reflexivity]. apply rule_reads_row. exists c, rg0. auto. }
      assert (i = i0).
      { destruct (Nat.lt_trichotomy i i0) as [L1|[L1|L1]]; [|exact L1 | lia]. rewrite (H0 i t rg L1 Ei) in Hr. discriminate. }
      subst i0. rewrite F. congruence.
  - intros (F & -> & ->). destruct (find_row_nth c rows) as [[F' _]|(i & t0 & rg & F' & E & R & H)]; [congruence|].
    rewrite F in F'. injection F' as <-. exists i. split; [reflexivity|]. split; [discriminate|]. split; [apply rule_reads_row; exists c, rg; auto|].
    intros j u' rest' t' E' Hu' R'. apply rule_reads_row in R'. destruct R' as (c' & rg' & -> & Ej & Rj). injection E' as <- <-.
    split; [apply le_n|]. intros _. destruct (Nat.le_gt_cases i j) as [L|L]; [exact L|]. rewrite (H j t' rg' L Ej) in Rj. discriminate.
Qed.

Lemma lexeme_nil t u rest : ~ lexeme [] t u rest.
Proof. intros (i & E & Hu & _). destruct u; [contradiction | discriminate]. Qed.

Lemma scans_iff m rs : forall w, scans m rs w <-> w = lex m rs.
Proof.
  induction rs as [|c rs IH]; intros w.
  - split.
    + intros H. inversion H as [|? ? ? ? ? L|]; subst; [reflexivity|]. exfalso. exact (lexeme_nil _ _ _ L).
    + intros ->. constructor.
  - unfold lex in *. cbn [flat_map]. unfold lex1 at 1. split.
    + intros H. inversion H as [|? t c' rest w' L H'|c' rest w' L H']; subst.
      * apply lexeme_iff in L. destruct L as (F & [= ->] & ->). rewrite F. apply IH in H'. subst w'. reflexivity.
      * destruct (lex_rune c) as [t|] eqn:F; [exfalso; apply (L t [c] rs); apply lexeme_iff; auto|].
        apply IH in H'. subst w'. destruct m; reflexivity.
    + intros ->. destruct (lex_rune c) as [t|] eqn:F.
      * cbn [app]. apply (sc_tok m (c :: rs) t c rs); [apply lexeme_iff; auto | apply IH; reflexivity].
      * assert (L : forall t u rest', ~ lexeme (c :: rs) t u rest') by (intros t u rest' L; apply lexeme_iff in L; destruct L; congruence).
        pose proof (sc_bad m c rs _ L (proj2 (IH _) eq_refl)) as Q. destruct m; exact Q.
Qed.
