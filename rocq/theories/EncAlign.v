(** Pieces of a text that have only one extent: comments, quoted strings, literals and encoded words
    are prefix codes, and comments with white space end where the next other token is. *)
From Coq Require Import String List NArith ZArith Bool Arith Lia.
From Verif Require Import Lexer Grammar Utf8 Strs Mime GoTime Parser Walker Api Spec ParserFacts
  WalkerFacts Static Total Cfws LangFacts LexFacts Utf8Facts First DateSpec AddrSpec Chosen AddrSem CharFacts PropApi PropInv
  ScanSpec ScanFacts ScanEnc ScanWords ScanName.
Import ListNotations.

(** ** Two ways to split a list *)
Lemma app_cases {A} (a b c d : list A) : a ++ b = c ++ d ->
  (exists z, a = c ++ z /\ d = z ++ b) \/ (exists z, c = a ++ z /\ b = z ++ d).
Proof.
  revert c. induction a as [|x a IH]; intros c H.
  - right. exists c. auto.
  - destruct c as [|y c]; cbn [app] in H.
    + left. exists (x :: a). auto.
    + injection H as -> H. destruct (IH _ H) as [(z & -> & ->)|(z & -> & ->)]; [left|right]; exists z; auto.
Qed.

Lemma app_len {A} (a b c d : list A) : a ++ b = c ++ d -> length a = length c -> a = c /\ b = d.
Proof.
  revert c. induction a as [|x a IH]; intros [|y c] H L; try discriminate; [auto|].
  cbn [app] in H. injection H as -> H. destruct (IH _ H) as [-> ->]; [now injection L|]. auto.
Qed.

(** two runs of [P]s that are followed by something else are the same *)
Lemma run_split {A} (P : A -> Prop) (a c : list A) b d : a ++ b = c ++ d -> Forall P a -> Forall P c ->
  (match b with x :: _ => ~ P x | [] => True end) -> (match d with x :: _ => ~ P x | [] => True end) ->
  a = c /\ b = d.
Proof.
  intros H Pa Pc Nb Nd. destruct (app_cases _ _ _ _ H) as [(z & -> & ->)|(z & -> & ->)].
  - destruct z as [|x z]; [rewrite app_nil_r; auto|]. exfalso. apply Nd. apply Forall_app in Pa as [_ Pa]. now inversion Pa.
  - destruct z as [|x z]; [rewrite app_nil_r; auto|]. exfalso. apply Nb. apply Forall_app in Pc as [_ Pc]. now inversion Pc.
Qed.

(** ** Tokens of a text, and its end *)
Definition lx (t : tok) : Prop := lexed t \/ t = eof_tok.

Lemma lx_lexed g u v : lang g u -> Forall lx (u ++ v) -> memb T_EOF (alphabet g) = false -> Forall lexed u.
Proof.
  intros L F N. apply Forall_app in F as [F _]. apply alphabet_lang in L. rewrite Forall_forall in *. intros t Ht.
  destruct (F t Ht) as [K|K]; [exact K|]. exfalso. specialize (L t Ht). rewrite K in L. cbn [tt eof_tok] in L.
  apply memb_In in L. change (tt eof_tok) with T_EOF in L. rewrite L in N. discriminate.
Qed.

(** ** The scanner reports something on every piece that returns to plain text *)
Lemma quiet_run x : forall m a, mo m x = MN a -> em m x = [] -> x = [] /\ exists a', m = MN a'.
Proof.
  induction x as [|r x IH]; intros m a M E.
  - rewrite mo_nil in M. eauto.
  - rewrite mo_cons in M. rewrite em_cons in E. apply app_eq_nil in E as [E1 E2]. destruct (IH _ _ M E2) as [-> [a' Ha']].
    exfalso. revert E1 Ha'. destruct m; cbn [step].
    all: repeat match goal with
    | |- context [if ?b then _ else _] => destruct b
    | |- context [match ?n with O => _ | S _ => _ end] => destruct n
    end; cbn [fst snd]; discriminate.
Qed.

Lemma one_emit u v x y : (forall a, runs_to (MN a) u (MN a) [x]) -> (forall a, runs_to (MN a) v (MN a) [y]) ->
  forall p q, u ++ p = v ++ q -> u = v.
Proof.
  assert (G : forall u v x y, (forall a, runs_to (MN a) u (MN a) [x]) -> (forall a, runs_to (MN a) v (MN a) [y]) -> forall z, u = v ++ z -> u = v).
  { clear. intros u v x y U V z ->. specialize (U false). specialize (V false).
    destruct (runs_split _ _ _ _ _ U _ _ V) as (l2 & E & R). cbn [app] in E. injection E as _ E.
    destruct (quiet_run z (MN false) false) as [-> _]; [eapply runs_mo; eassumption | rewrite (runs_em _ _ _ _ R); now rewrite <- E | now rewrite app_nil_r]. }
  intros U V p q H. destruct (app_cases _ _ _ _ H) as [(z & E & _)|(z & E & _)]; [now apply (G u v x y U V z) | symmetry; now apply (G v u y x V U z)].
Qed.

Lemma rs_len u v : rs u = rs v -> length u = length v.
Proof. intros H. apply (f_equal (@length _)) in H. unfold rs in H. now rewrite !map_length in H. Qed.

Lemma one_emit_toks u v x y : emits u [x] -> emits v [y] -> forall p q, u ++ p = v ++ q -> u = v /\ p = q.
Proof.
  intros U V p q H. apply app_len; [exact H|]. apply rs_len. apply (one_emit _ _ x y U V (rs p) (rs q)). rewrite <- !rs_app. now f_equal.
Qed.

Lemma comment_code c c' p q : lang (Nt R_comment) c -> lang (Nt R_comment) c' -> Forall lx (c ++ p) -> Forall lx (c' ++ q) ->
  c ++ p = c' ++ q -> c = c' /\ p = q.
Proof.
  intros C C' F F' H. apply (one_emit_toks _ _ EG EG); [| |exact H]; intros a; apply runs_comment; auto; eapply lx_lexed; eauto; vm_compute; reflexivity.
Qed.

Lemma qstring_code c c' v v' p q : r_qstring c v -> r_qstring c' v' -> Forall lexed c -> Forall lexed c' ->
  c ++ p = c' ++ q -> c = c' /\ p = q /\ v = v'.
Proof.
  intros C C' F F' H. destruct (runs_qstring _ _ C F) as (t & -> & _ & E). destruct (runs_qstring _ _ C' F') as (t' & -> & _ & E').
  destruct (one_emit_toks _ _ _ _ E E' _ _ H) as [-> ->]. split; [reflexivity|]. split; [reflexivity|].
  pose proof (emits_fun _ _ _ E E') as X. injection X as ->. reflexivity.
Qed.

Lemma literal_code c c' p q : Forall lexed c -> Forall lexed c' -> lang (Nt R_domainLiteral) c -> lang (Nt R_domainLiteral) c' ->
  c ++ p = c' ++ q -> c = c' /\ p = q.
Proof.
  intros F F' C C' H. apply lang_domainLiteral in C, C'; auto.
  apply (one_emit_toks _ _ (EL (rs c)) (EL (rs c'))); [| |exact H]; intros a; now apply runs_bracketed.
Qed.

Lemma encoded_code c c' p q : Forall lexed c -> Forall lexed c' -> lang (Nt R_encodedWord) c -> lang (Nt R_encodedWord) c' ->
  c ++ p = c' ++ q -> c = c' /\ p = q.
Proof.
  intros F F' C C' H. apply lang_encodedWord in C, C'; auto. apply app_len; [exact H|]. apply rs_len.
  apply (f_equal rs) in H. rewrite !rs_app in H. now destruct (wide_det _ _ _ _ C C' H) as [-> _].
Qed.

(** ** Comments and white space *)
Definition gap_start : list ttype := [T_SP; T_TAB; T_CR; T_LF; T_LParens].

Lemma folded_head t s : folded (t :: s) -> In (tt t) [T_SP; T_TAB; T_CR].
Proof.
  intros [H|(x & cr & lf & y & E & E1 & E2 & H1 & H2 & N)].
  - inversion H as [|? ? K]; subst. cbn [In] in *. tauto.
  - destruct x as [|a x]; cbn [app] in E; injection E as -> E.
    + rewrite E1. cbn. tauto.
    + inversion H1 as [|? ? K]; subst. cbn [In] in *. tauto.
Qed.

Lemma comment_head c : lang (Nt R_comment) c -> exists t c', c = t :: c' /\ tt t = T_LParens.
Proof. intros H. apply lang_comment in H as (o & m & d & -> & H & _). eauto. Qed.

Lemma wsps_app x y : wsps (x ++ y) <-> wsps x /\ wsps y.
Proof. apply Forall_app. Qed.

Lemma wsp_tt t : In (tt t) [T_SP; T_TAB] -> tt t = T_CR \/ tt t = T_LF -> False.
Proof. cbn [In]. intros [H|[H|[]]] [K|K]; rewrite <- H in K; discriminate. Qed.

(** what is left of folding white space after folding white space *)
Lemma folded_rest s z : folded (s ++ z) -> folded s -> folded z.
Proof.
  intros H S. destruct H as [H|(x & cr & lf & y & E & E1 & E2 & H1 & H2 & N)].
  - left. now apply wsps_app in H as [_ H].
  - destruct (app_cases _ _ _ _ E) as [(k & -> & F)|(k & -> & ->)].
    + (* s reaches the line break *)
      destruct k as [|a k]; cbn [app] in F.
      * rewrite <- F. right. exists [], cr, lf, y. cbn [app]. repeat split; auto. constructor.
      * injection F as <- F. destruct S as [S|(x' & cr' & lf' & y' & E' & E1' & E2' & H1' & H2' & N')].
        { exfalso. apply wsps_app in S as [_ S]. inversion S as [|? ? K]; subst. eapply wsp_tt; eauto. }
        assert (x = x' /\ cr :: k = cr' :: lf' :: y') as [-> X].
        { apply (run_split (fun t => In (tt t) [T_SP; T_TAB])); auto; intros K; eapply wsp_tt; eauto. }
        injection X as -> ->. cbn [app] in F. injection F as -> ->. left. now apply wsps_app in H2 as [_ H2].
    + right. exists k, cr, lf, y. apply wsps_app in H1 as [_ H1]. auto 7.
Qed.

Lemma cfl_align u : cfl u -> forall v, cfl v -> forall x y, Forall lx (u ++ x) -> u ++ x = v ++ y ->
  exists z, cfl z /\ ((u = v ++ z /\ y = z ++ x) \/ (v = u ++ z /\ x = z ++ y)).
Proof.
  induction 1 as [s Hs|s c w Hs Hc Hw IH]; intros v Hv x y F E.
  - destruct Hv as [s' Hs'|s' c' w' Hs' Hc' Hw'].
    + destruct (app_cases _ _ _ _ E) as [(z & -> & ->)|(z & -> & ->)]; exists z; (split; [apply cfl_f; eapply folded_rest; eassumption|]); auto.
    + rewrite <- !app_assoc in E. destruct (comment_head _ Hc') as (o & c1 & Ec & Eo).
      destruct (app_cases _ _ _ _ E) as [(z & -> & K)|(z & -> & ->)].
      * assert (z = []) as ->.
        { destruct z as [|t z]; [reflexivity|]. exfalso. pose proof (folded_rest _ _ Hs Hs') as G. apply folded_head in G.
          rewrite Ec in K. cbn [app] in K. injection K as <- _. rewrite Eo in G. cbn in G. intuition discriminate. }
        cbn [app] in K. exists (c' ++ w'). split; [apply (cfl_c [] c' w'); auto; left; constructor|].
        right. split; [now rewrite app_nil_r | rewrite <- K; now rewrite <- app_assoc].
      * exists (z ++ c' ++ w'). split; [apply cfl_c; auto; eapply folded_rest; eassumption|]. right. rewrite <- !app_assoc. auto.
  - rewrite <- !app_assoc in E. destruct (comment_head _ Hc) as (o & c1 & Ec & Eo). destruct Hv as [s' Hs'|s' c' w' Hs' Hc' Hw'].
    + destruct (app_cases _ _ _ _ E) as [(z & -> & ->)|(z & -> & K)].
      * exists (z ++ c ++ w). split; [apply cfl_c; auto; eapply folded_rest; eassumption|]. left. rewrite <- !app_assoc. auto.
      * assert (z = []) as ->.
        { destruct z as [|t z]; [reflexivity|]. exfalso. pose proof (folded_rest _ _ Hs' Hs) as G. apply folded_head in G.
          rewrite Ec in K. cbn [app] in K. injection K as <- _. rewrite Eo in G. cbn in G. intuition discriminate. }
        cbn [app] in K. exists (c ++ w). split; [apply (cfl_c [] c w); auto; left; constructor|].
        left. rewrite app_nil_r. split; [reflexivity|]. rewrite <- app_assoc. auto.
    + destruct (comment_head _ Hc') as (o' & c1' & Ec' & Eo'). rewrite <- !app_assoc in E.
      assert (s = s' /\ c ++ w ++ x = c' ++ w' ++ y) as [-> E'].
      { destruct (app_cases _ _ _ _ E) as [(z & -> & K)|(z & -> & K)].
        - destruct z as [|t z]; [rewrite app_nil_r; auto|]. exfalso. pose proof (folded_rest _ _ Hs Hs') as G. apply folded_head in G.
          rewrite Ec' in K. cbn [app] in K. injection K as <- _. rewrite Eo' in G. cbn in G. intuition discriminate.
        - destruct z as [|t z]; [rewrite app_nil_r; auto|]. exfalso. pose proof (folded_rest _ _ Hs' Hs) as G. apply folded_head in G.
          rewrite Ec in K. cbn [app] in K. injection K as <- _. rewrite Eo in G. cbn in G. intuition discriminate. }
      rewrite <- !app_assoc in F. apply Forall_app in F as [_ F].
      destruct (comment_code _ _ _ (w' ++ y) Hc Hc' F) as [-> E'']; [rewrite <- E'; exact F | exact E'|].
      apply Forall_app in F as [_ F]. destruct (IH _ Hw' x y F E'') as (z & Z & [[-> ->]|[-> ->]]); exists z; (split; [exact Z|]); [left|right]; rewrite <- ?app_assoc; auto.
Qed.

Lemma cfl_head t u : cfl (t :: u) -> In (tt t) gap_start.
Proof.
  intros H. remember (t :: u) as x eqn:E. destruct H as [s Hs|s c w Hs Hc Hw].
  - subst s. apply folded_head in Hs. cbn [In gap_start] in *. tauto.
  - destruct s as [|a s].
    + cbn [app] in E. destruct (comment_head _ Hc) as (o & c1 & -> & Eo). cbn [app] in E. injection E as -> _. rewrite Eo. cbn. tauto.
    + cbn [app] in E. injection E as -> _. apply folded_head in Hs. cbn [In gap_start] in *. tauto.
Qed.

Lemma cfws_head t u : opt_cfws (t :: u) -> In (tt t) gap_start.
Proof. intros H. apply cfws_cfl in H. now apply cfl_head in H. Qed.

Definition solid (y : word) : Prop := match y with t :: _ => memb (tt t) gap_start = false | [] => True end.

Lemma solid_no t z y : opt_cfws (t :: z) -> solid (t :: y) -> False.
Proof. intros H S. apply cfws_head in H. unfold solid in S. apply memb_In in H. rewrite H in S. discriminate. Qed.

(** A gap read at the start of a gap and something solid is the start of that gap. *)
Lemma gap_part g y u x : opt_cfws g -> solid y -> opt_cfws u -> Forall lx (g ++ y) -> g ++ y = u ++ x ->
  exists z, g = u ++ z /\ x = z ++ y /\ opt_cfws z.
Proof.
  intros G S U F E. destruct (cfl_align g (proj1 (cfws_cfl _) G) u (proj1 (cfws_cfl _) U) y x F E) as (z & Z & [[-> ->]|[-> ->]]).
  - exists z. repeat split; auto. now apply cfws_cfl.
  - destruct z as [|t z]; [exists []; rewrite ?app_nil_r; repeat split; auto; apply lang_opt_none|].
    exfalso. apply (solid_no t z (z ++ x)); [now apply cfws_cfl | exact S].
Qed.

(** If something solid follows, it is the whole gap. *)
Lemma gap_whole g y u x : opt_cfws g -> solid y -> opt_cfws u -> solid x -> Forall lx (g ++ y) -> g ++ y = u ++ x -> g = u /\ y = x.
Proof.
  intros G S U X F E. destruct (gap_part g y u x G S U F E) as (z & -> & -> & Z).
  destruct z as [|t z]; [rewrite app_nil_r; auto|]. exfalso. eapply solid_no; [exact Z | exact X].
Qed.

Lemma gap_none y u x : solid y -> opt_cfws u -> Forall lx y -> y = u ++ x -> u = [] /\ x = y.
Proof.
  intros S U F E. destruct (gap_part [] y u x) as (z & Z & -> & _); auto; [apply lang_opt_none|].
  symmetry in Z. apply app_eq_nil in Z as [-> ->]. auto.
Qed.
