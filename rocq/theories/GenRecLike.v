(** Until the first error is reported, a run with recovery is a run of GenRun.v; after it, the error stays. *)
From Coq Require Import List NArith ZArith Bool Arith Lia FMapPositive.
From Verif Require Import Lexer Grammar Parser Spec ParserFacts Static Cfws First GenSyntax GenAtn GenCode GenRun GenShape GenNet GenCheck GenFacts GenWit GenRecover.
Import ListNotations.

(** ** An error stays *)
Definition sad (o : routcome) : Prop := match o with RDone _ _ m | RRaise _ m => failed m = true | RFuel => True end.

Lemma treeless_sad : treeless sad.
Proof. intros f g c m. auto. Qed.

Lemma failed_eat m : failed (eat m) = failed m. Proof. reflexivity. Qed.
Lemma failed_skip k : forall m, failed (skip k m) = failed m.
Proof. induction k as [|k IH]; intros m; [reflexivity|]. cbn [skip]. rewrite IH. reflexivity. Qed.
Lemma failed_report m : failed m = true -> failed (report m) = true.
Proof. unfold report. destruct (mode m); auto. Qed.
Lemma failed_matched m : failed (matched m) = failed m. Proof. reflexivity. Qed.
Lemma failed_recover c k m : failed (recover c k m) = failed m.
Proof. unfold recover. rewrite failed_skip. cbn [failed]. destruct (match lix m with Some i => _ | None => _ end); reflexivity. Qed.

Lemma catch_sad r cur o : sad o -> revery sad (catch r cur o).
Proof.
  destruct o as [f c m|c m|]; cbn [catch revery sad]; auto. intros H i. cbn [sad]. rewrite failed_recover. apply failed_report. exact H.
Qed.

Lemma rrun_sad n : forall cs cur st m, failed m = true -> revery sad (rrun n cs cur st m).
Proof.
  induction n as [|n IH]; intros cs cur st m Hm; [exact I|]. cbn [rrun]. destruct cs as [|s cs]; [exact Hm|].
  assert (Seq : forall p k, revery sad p -> (forall c v, failed v = true -> revery sad (k c v)) -> revery sad (rthen p k)).
  { intros p k H1 H2. eapply then_treeless; [exact treeless_sad | exact H1 | | auto | auto]. intros f c v. apply H2. }
  assert (Inl : forall go, (forall v, failed v = true -> revery sad (go v)) -> revery sad (inline cur m go)).
  { intros go Hg. unfold inline. cbn [revery]. intros [| |] _; cbn [revery sad].
    - apply Hg. rewrite failed_eat, failed_matched, failed_eat. apply failed_report. exact Hm.
    - apply Hg. apply failed_report. exact Hm.
    - exact Hm. }
  destruct s as [q| |t|cd|r|cd b|cd b|cd b|bs|d bs|d b t|d b t].
  - apply IH. exact Hm.
  - destruct (mode m); [apply IH; exact Hm|]. cbn [revery]. intros [| |k|] _; cbn [revery sad]; try exact Hm; apply IH; try exact Hm.
    + rewrite failed_matched, failed_eat. apply failed_report. exact Hm.
    + rewrite failed_skip. apply failed_report. exact Hm.
  - destruct (ws m) as [|x w]; [apply Inl; intros; apply IH; assumption|]. destruct (N.eqb (tt x) t); [|apply Inl; intros; apply IH; assumption].
    apply Seq; [exact Hm | intros; apply IH; assumption].
  - destruct (ws m) as [|x w]; [apply Inl; intros; apply IH; assumption|]. destruct (eval cd (tt x)); [|apply Inl; intros; apply IH; assumption].
    apply Seq; [exact Hm | intros; apply IH; assumption].
  - apply Seq; [|intros; apply IH; assumption]. eapply revery_bind; [apply IH; exact Hm | apply catch_sad].
  - destruct (eval cd (la (ws m))); [|apply IH; exact Hm]. apply Seq; [apply IH; exact Hm | intros; apply IH; assumption].
  - destruct (eval cd (la (ws m))); [|apply IH; exact Hm]. apply Seq; [apply IH; exact Hm | intros; apply IH; assumption].
  - apply Seq; [apply IH; exact Hm|]. intros c v Hv. destruct (eval cd (la (ws v))); apply IH; exact Hv.
  - destruct (pick_case (la (ws m)) bs) as [b|]; [|exact Hm]. apply Seq; [apply IH; exact Hm | intros; apply IH; assumption].
  - cbn [revery]. intros [[|j]|] _ _; [apply IH; exact Hm | | exact Hm]. destruct (nth_error bs j) as [b|]; [|apply IH; exact Hm].
    apply Seq; [apply IH; exact Hm | intros; apply IH; assumption].
  - cbn [revery]. intros [[|[|[|i]]]|] _ _; try exact Hm; try (apply IH; exact Hm).
    + apply Seq; [apply IH; exact Hm|]. intros c v Hv. apply Seq; [apply IH; exact Hv | intros; apply IH; assumption].
    + apply Seq; [apply IH; exact Hm | intros; apply IH; assumption].
  - apply Seq; [apply IH; exact Hm|]. intros c v Hv. apply Seq; [apply IH; exact Hv|]. intros c2 u Hu.
    cbn [revery]. intros [[|[|[|i]]]|] _ _; try exact Hu; apply IH; exact Hu.
Qed.

(** ** No error yet *)
Definition clean (w : word) (m : mem) : Prop := ws m = w /\ mode m = false /\ failed m = false.

(** [like P]: what an outcome of a run with recovery says about outcomes with [P] of GenRun.v. *)
Definition like (P : outcome -> Prop) (o : routcome) : Prop :=
  match o with
  | RDone f c m => failed m = true /\ P Failed \/ (clean (ws m) m /\ P (Done f c (ws m)))
  | RRaise c m => (failed m = true \/ clean (ws m) m) /\ P Failed
  | RFuel => P OutOfFuel \/ P Failed
  end.

Lemma sad_like (P : outcome -> Prop) o : P Failed -> sad o -> like P o.
Proof. intros HP. destruct o as [f c m|c m|]; cbn [sad like]; auto. Qed.

Lemma sad_mono (P : outcome -> Prop) p : P Failed -> revery sad p -> revery (like P) p.
Proof. intros HP. apply revery_mono. intros o. apply sad_like. exact HP. Qed.

Lemma failed_clean w m : clean w m -> failed (report m) = true.
Proof. intros (_ & H & _). unfold report. rewrite H. reflexivity. Qed.

Lemma every_unbind P f : forall p, every P (bind p f) -> every (fun o => every P (f o)) p.
Proof. induction p as [o|d st w k IH|n t k IH]; cbn [every bind]; auto. Qed.

Lemma every_unthen P p k : every P (and_then p k) ->
  every (fun o => match o with Done f c w => every (fun o' => P (prepend f o')) (k c w) | o' => P o' end) p.
Proof.
  intros H. apply every_unbind in H. eapply every_mono; [|exact H]. intros [f c w| |]; cbn beta iota; [|auto|auto].
  intros E. apply every_unbind in E. exact E.
Qed.

Lemma rrun_like n : forall cs cur st m P, clean (ws m) m -> every P (run n cs cur st (ws m)) -> revery (like P) (rrun n cs cur st m).
Proof.
  induction n as [|n IH]; intros cs cur st m P Hm HP; [left; exact HP|]. cbn [rrun]. cbn [run] in HP.
  destruct cs as [|s cs]; [right; split; [exact Hm | exact HP]|].
  (* a part and the rest *)
  assert (Seq : forall p k q l R, revery (like R) p -> R = (fun o => match o with Done f c w => every (fun o' => P (prepend f o')) (l c w) | o' => P o' end) ->
     every P (and_then q l) ->
     (forall c v Q, clean (ws v) v -> every Q (l c (ws v)) -> revery (like Q) (k c v)) ->
     (forall c v, failed v = true -> revery sad (k c v)) -> revery (like P) (rthen p k)).
  { intros p k q l R H1 -> _ H3 H4. eapply revery_then; [exact H1 | | |].
    - intros f c v [[Hv HF]|[Hv HD]]; cbn beta.
      + eapply revery_mono; [|apply H4; exact Hv]. intros o Ho. apply sad_like; [exact HF|]. apply treeless_prepend; [exact treeless_sad | exact Ho].
      + eapply revery_mono; [|apply (H3 c v _ Hv HD)]. intros [f' c' m'|c' m'|]; cbn [like rprepend prepend]; auto.
    - intros c v H. exact H.
    - intros H. exact H. }
  assert (Blk : forall b k l, every P (and_then (run n b cur st (ws m)) l) ->
     (forall c v Q, clean (ws v) v -> every Q (l c (ws v)) -> revery (like Q) (k c v)) ->
     (forall c v, failed v = true -> revery sad (k c v)) -> revery (like P) (rthen (rrun n b cur st m) k)).
  { intros b k l H1 H2 H3. eapply Seq; [|reflexivity | exact H1 | exact H2 | exact H3]. apply IH; [exact Hm|]. apply every_unthen. exact H1. }
  assert (Two : forall b k l Q c0 v0, clean (ws v0) v0 -> every Q (and_then (run n b c0 st (ws v0)) l) ->
     (forall c v R, clean (ws v) v -> every R (l c (ws v)) -> revery (like R) (k c v)) ->
     (forall c v, failed v = true -> revery sad (k c v)) -> revery (like Q) (rthen (rrun n b c0 st v0) k)).
  { intros b k l Q c0 v0 H0 H1 H3 H4. apply every_unthen in H1. eapply revery_then; [apply (IH _ _ _ _ _ H0 H1) | | |].
    - intros f c v [[Hv HF]|[Hv HD]]; cbn beta.
      + eapply revery_mono; [|apply H4; exact Hv]. intros o Ho. apply sad_like; [exact HF|]. apply treeless_prepend; [exact treeless_sad | exact Ho].
      + eapply revery_mono; [|apply (H3 c v _ Hv HD)]. intros [f' c' m'|c' m'|]; cbn [like rprepend prepend]; auto.
    - intros c v H. exact H.
    - intros H. exact H. }
  assert (Inl : forall go, P Failed -> (forall v, failed v = true -> revery sad (go v)) -> revery (like P) (inline cur m go)).
  { intros go HF Hg. unfold inline. cbn [revery]. intros [| |] _; cbn [revery like].
    - apply sad_mono; [exact HF|]. apply Hg. rewrite failed_eat, failed_matched, failed_eat. eapply failed_clean. exact Hm.
    - apply sad_mono; [exact HF|]. apply Hg. eapply failed_clean. exact Hm.
    - split; [right; exact Hm | exact HF]. }
  assert (Tok : forall x w k l, ws m = x :: w -> every P (and_then (End (Done [Leaf x] cur w)) l) ->
     (forall c v Q, clean (ws v) v -> every Q (l c (ws v)) -> revery (like Q) (k c v)) ->
     (forall c v, failed v = true -> revery sad (k c v)) -> revery (like P) (rthen (REnd (RDone [Leaf x] cur (matched (put m w)))) k)).
  { intros x w k l E H1 H2 H3. eapply Seq; [|reflexivity | exact H1 | exact H2 | exact H3]. right. split.
    - destruct Hm as (A & B & C). split; [reflexivity|]. split; [reflexivity | exact C].
    - apply every_unthen in H1. exact H1. }
  destruct s as [q| |t|cd|r|cd b|cd b|cd b|bs|d bs|d b t|d b t].
  - apply IH; assumption.
  - destruct Hm as (A & B & C). rewrite B. cbn [revery every] in *. intros r Hr.
    assert (HF : r <> SyncOk -> P Failed).
    { intros Hn. apply (HP true). intros Hx. exfalso. apply Hn. apply Hr. exact Hx. }
    assert (HG : every P (run n cs cur st (ws m))) by (apply (HP false); intros _; reflexivity).
    destruct r as [| |k|].
    + apply IH; [repeat split; assumption | exact HG].
    + apply sad_mono; [apply HF; discriminate|]. apply rrun_sad. rewrite failed_matched, failed_eat. unfold report. rewrite B. reflexivity.
    + apply sad_mono; [apply HF; discriminate|]. apply rrun_sad. rewrite failed_skip. unfold report. rewrite B. reflexivity.
    + split; [right; repeat split; assumption | apply HF; discriminate].
  - destruct (ws m) as [|x w] eqn:E; [apply Inl; [exact HP | intros; apply rrun_sad; assumption]|].
    destruct (N.eqb (tt x) t); [|apply Inl; [exact HP | intros; apply rrun_sad; assumption]].
    eapply (Tok x w); [reflexivity | exact HP | intros c v Q; apply IH | intros c v; apply rrun_sad].
  - destruct (ws m) as [|x w] eqn:E; [apply Inl; [exact HP | intros; apply rrun_sad; assumption]|].
    destruct (eval cd (tt x)); [|apply Inl; [exact HP | intros; apply rrun_sad; assumption]].
    eapply (Tok x w); [reflexivity | exact HP | intros c v Q; apply IH | intros c v; apply rrun_sad].
  - apply every_unbind in HP.
    eapply revery_then with (Q := like (fun o => match o with Done f c w => every (fun o' => P (prepend f o')) (run n cs c st w) | o' => P o' end)).
    + eapply revery_bind; [apply IH; [exact Hm | exact HP]|]. intros [f c v|c v|] Ho; cbn [like] in Ho.
      * cbn [catch revery like]. destruct Ho as [[H1 H2]|[H1 H2]]; [left; split; [exact H1 | exact H2]|]. right. split; [exact H1|].
        apply every_unthen in H2. exact H2.
      * cbn [catch revery like]. intros i. left. split; [|apply Ho]. rewrite failed_recover. destruct Ho as [[Ho|Ho] _]; [apply failed_report; exact Ho | eapply failed_clean; exact Ho].
      * exact Ho.
    + intros f c v [[Hv HF]|[Hv HD]]; cbn beta.
      * eapply revery_mono; [|apply rrun_sad; exact Hv]. intros o Ho. apply sad_like; [exact HF|]. apply treeless_prepend; [exact treeless_sad | exact Ho].
      * eapply revery_mono; [|apply (IH cs c st v _ Hv HD)]. intros [f' c' m'|c' m'|]; cbn [like rprepend prepend]; auto.
    + intros c v H. exact H.
    + intros H. exact H.
  - destruct (eval cd (la (ws m))); [|apply IH; assumption].
    eapply Blk; [exact HP | intros c v Q; apply IH | intros c v; apply rrun_sad].
  - destruct (eval cd (la (ws m))); [|apply IH; assumption].
    eapply Blk; [exact HP | intros c v Q; apply IH | intros c v; apply rrun_sad].
  - eapply Blk; [exact HP | |].
    + intros c v Q Hv HQ. cbn beta in HQ. destruct (eval cd (la (ws v))); apply IH; assumption.
    + intros c v Hv. destruct (eval cd (la (ws v))); apply rrun_sad; assumption.
  - destruct (pick_case (la (ws m)) bs) as [b|]; [|split; [right; exact Hm | exact HP]].
    eapply Blk; [exact HP | intros c v Q; apply IH | intros c v; apply rrun_sad].
  - cbn [revery every] in *. intros o Ho _. specialize (HP o Ho). destruct o as [[|j]|]; [apply IH; assumption | | split; [right; exact Hm | exact HP]].
    destruct (nth_error bs j) as [b|]; [|apply IH; assumption].
    eapply Blk; [exact HP | intros c v Q; apply IH | intros c v; apply rrun_sad].
  - cbn [revery every] in *. intros o Ho _. specialize (HP o Ho). destruct o as [[|[|[|i]]]|]; try (apply IH; assumption); [| |split; [right; exact Hm | exact HP]].
    + eapply Blk; [exact HP | |].
      * intros c v Q Hv HQ. eapply Two; [exact Hv | exact HQ | intros c2 u R; apply IH | intros c2 u; apply rrun_sad].
      * intros c v Hv. eapply then_treeless; [exact treeless_sad | apply rrun_sad; exact Hv | intros f c2 u; apply rrun_sad | auto | auto].
    + eapply Blk; [exact HP | intros c v Q; apply IH | intros c v; apply rrun_sad].
  - eapply Blk; [exact HP | |].
    + intros c v Q Hv HQ. eapply Two; [exact Hv | exact HQ | |].
      * intros c2 u R Hu HR. cbn [revery every] in *. intros o Ho _. specialize (HR o Ho).
        destruct o as [[|[|[|i]]]|]; try (apply IH; assumption); split; try (right; exact Hu); exact HR.
      * intros c2 u Hu. cbn [revery]. intros [[|[|[|i]]]|] _ _; try exact Hu; apply rrun_sad; exact Hu.
    + intros c v Hv. eapply then_treeless; [exact treeless_sad | apply rrun_sad; exact Hv | | auto | auto]. intros f c2 u Hu.
      cbn [revery]. intros [[|[|[|i]]]|] _ _; try exact Hu; apply rrun_sad; exact Hu.
Qed.
