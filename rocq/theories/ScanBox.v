(** Domains, address specifications, angle addresses and mailboxes. *)
From Coq Require Import String List NArith ZArith Bool Arith Lia.
From Verif Require Import Lexer Grammar Utf8 Strs Mime GoTime Parser Walker Api Spec ParserFacts
  WalkerFacts Static Cfws LangFacts LexFacts Utf8Facts DateSpec First AddrSpec AddrSem CharFacts ScanSpec ScanFacts ScanEnc ScanWords ScanName ScanAddr.
Import ListNotations.

(** ** Cutting *)
Definition without (c : N) (l : list emit) : Prop := Forall (fun x => x <> ES c) l.

Lemma cut_some c A B : without c A -> cut c (A ++ ES c :: B) = Some (A, B).
Proof.
  induction 1 as [|x A Hx H IH]; cbn [app cut]; [now rewrite N.eqb_refl|]. rewrite IH. destruct x; try reflexivity.
  destruct (N.eqb_spec r c); [subst; congruence | reflexivity].
Qed.

Lemma cut_none c A : without c A -> cut c A = None.
Proof.
  induction 1 as [|x A Hx H IH]; cbn [app cut]; [reflexivity|]. rewrite IH. destruct x; try reflexivity.
  destruct (N.eqb_spec r c); [subst; congruence | reflexivity].
Qed.

Definition only (rs : list N) (x : emit) : Prop := match x with ES r => In r rs | ESep => False | _ => True end.

Lemma only_without rs c l : Forall (only rs) l -> ~ In c rs -> without c l.
Proof. intros H N. eapply Forall_impl; [|exact H]. intros x Hx ->. apply N. exact Hx. Qed.

Lemma only_mono rs rs' l : Forall (only rs) l -> incl rs rs' -> Forall (only rs') l.
Proof. intros H N. eapply Forall_impl; [|exact H]. intros [r| |r| |t|t]; cbn; auto. Qed.

Lemma only_gaps rs k : Forall (only rs) (repeat EG k).
Proof. apply Forall_forall. intros x H. apply repeat_spec in H. now subst. Qed.
Lemma only_atoms rs x : Forall (only rs) (map EA x).
Proof. apply Forall_map. apply Forall_forall. intros. exact I. Qed.
Lemma only_dots rs x : In 46%N rs -> Forall (only rs) (map dote x).
Proof. intros H. apply Forall_map. apply Forall_forall. intros r _. unfold dote. destruct (N.eqb_spec r 46); [subst; exact H | exact I]. Qed.
Lemma loc_only l : Forall locE l -> Forall (only [46%N]) l.
Proof. intros H. eapply Forall_impl; [|exact H]. intros [r| |r| |t|t]; cbn; auto. Qed.
Lemma disp_only l : Forall dispE l -> Forall (only [46%N; 64%N]) l.
Proof. intros H. eapply Forall_impl; [|exact H]. intros [r| |r| |t|t]; cbn; intuition. Qed.

(** ** Domains *)
Lemma domain_scan w d : r_domain w d -> Forall lexed w -> exists E, emits w E /\ flat E = d /\ Forall (only [46%N]) E.
Proof.
  intros [u m u' Hu Hm Hu'] L. apply Forall_app in L as [L1 L]. apply Forall_app in L as [L2 L3].
  destruct (emits_cfws u Hu L1) as (k & R1 & _). destruct (emits_cfws u' Hu' L3) as (k' & R3 & _).
  assert (X : exists E, emits m E /\ flat E = text m /\ Forall (only [46%N]) E).
  { rewrite text_lexed by assumption. fold (rs m).
    assert (D : dot_atom (rs m) \/ bracketed (rs m)).
    { destruct Hm as [Hm|[Hm|Hm]]; [left; now apply lang_dotAtom | right; now apply lang_domainLiteral | left; now apply lang_obsDomain]. }
    destruct D as [D|D].
    - exists (map dote (rs m)). split; [apply emits_adots, dot_atom_adot, D|]. split; [apply flat_dots | apply only_dots; now left].
    - exists [EL (rs m)]. split; [intros a; now apply runs_bracketed|]. split; [cbn; apply app_nil_r | repeat constructor]. }
  destruct X as (E & R & F & O). exists (repeat EG k ++ E ++ repeat EG k'). split; [auto using emits_app|].
  split; [rewrite !flat_app, !flat_gaps, F; cbn [app]; apply app_nil_r|]. repeat (apply Forall_app; split); auto using only_gaps.
Qed.

Lemma emits_special t c : lexed t -> tr t = c -> In c dots -> emits [t] [ES c].
Proof. intros L <- H a. unfold rs. cbn [map]. change [ES (tr t)] with ([ES (tr t)] ++ []). eapply runs_step; [now apply step_special | apply runs_nil]. Qed.

(** ** Address specifications *)
Lemma flat_cons x l : flat (x :: l) = plain x ++ flat l.
Proof. reflexivity. Qed.

Lemma local_of_gaps rd E v : (forall k, local_of rd (repeat EG k ++ E) = v) -> local_of rd E = v.
Proof. intros H. exact (H 0). Qed.

Lemma gaps_In l x : In x l -> gap x = false -> gaps l = false.
Proof.
  intros H1 H2. destruct (gaps l) eqn:E; [|reflexivity]. unfold gaps in E. rewrite forallb_forall in E. rewrite E in H2 by assumption. discriminate.
Qed.

Lemma gaps_repeat k : gaps (repeat EG k) = true.
Proof. induction k; [reflexivity | exact IHk]. Qed.

Lemma port_like_digits ds k : ds <> [] -> Forall (fun r => digit_char r = true) ds -> port_like (map EA ds ++ repeat EG k) = true.
Proof.
  intros N H. induction H as [|r ds Hr H IH]; [congruence|]. cbn [map app port_like]. rewrite Hr. cbn [andb]. destruct ds as [|r' ds].
  - cbn [map app]. now rewrite gaps_repeat.
  - rewrite IH by discriminate. apply orb_true_r.
Qed.

Lemma port_like_special l r : In (ES r) l -> port_like l = false.
Proof.
  intros H. induction l as [|x l IH]; [destruct H|]. destruct H as [->|H]; [reflexivity|]. cbn [port_like]. destruct x; try reflexivity.
  rewrite IH by assumption. rewrite (gaps_In l (ES r) H eq_refl). apply andb_false_r.
Qed.

(** How an address specification starts: not with a route. *)
Definition plain_start (E : list emit) : Prop :=
  match drop_gaps E with ES r :: _ => r <> 64%N /\ r <> 44%N | _ => True end.

Lemma spec_scan rd w v : r_addrspec rd w v -> Forall lexed w -> forall b a x, tamed b (MN a) (rs w ++ x) ->
  exists E, emits w E /\ (forall k, spec_of rd (E ++ repeat EG k) = v) /\ (forall k, ungroup (E ++ repeat EG k) = E ++ repeat EG k) /\
    Forall (only [46%N; 64%N; 58%N]) E /\ In (ES 64%N) E /\ forall F, plain_start (E ++ F).
Proof.
  intros H L b a x K.
  assert (Hs : forall L1 F, (exists k1 c k2, L1 = repeat EG k1 ++ c ++ repeat EG k2 /\ core c) -> Forall locE L1 -> plain_start (L1 ++ F)).
  { intros L1 F (k1 & c & k2 & -> & (y & c' & -> & Hy) & _) Fl. unfold plain_start. rewrite <- !app_assoc, drop_gaps_repeat. cbn [app].
    rewrite drop_gaps_head by assumption. apply Forall_app in Fl as [_ Fl]. apply Forall_app in Fl as [Fl _]. apply Forall_inv in Fl.
    destruct y; try exact I. cbn in Fl. subst r. split; discriminate. }
  destruct H as [wl l t wd d Hl Ht Hd|wl l t wd d c p Hl Ht Hd Hc Hp].
  - apply Forall_app in L as [L1 L]. inversion L as [|? ? Lt L2]; subst. rewrite rs_app, rs_cons, <- app_assoc in K. cbn [app] in K.
    destruct (local_scan rd wl l Hl L1 b a (tr t :: rs wd ++ x) K) as (EL & RL & VL & FL & SL). apply local_of_gaps in VL.
    destruct (domain_scan wd d Hd L2) as (ED & RD & VD & FD). tokc t 64%N. pose proof (emits_special t 64%N Lt H (or_intror (or_introl eq_refl))) as RT.
    pose proof (loc_only EL FL) as OL.
    exists (EL ++ ES 64%N :: ED).
    assert (O : Forall (only [46%N; 64%N; 58%N]) (EL ++ ES 64%N :: ED)).
    { apply Forall_app. split; [eapply only_mono; [exact OL | intros y [<-|[]]; now left]|]. constructor; [cbn; auto|].
      eapply only_mono; [exact FD | intros y [<-|[]]; now left]. }
    split; [change (t :: wd) with ([t] ++ wd); change (ES 64%N :: ED) with ([ES 64%N] ++ ED); auto using emits_app|].
    split; [|split; [|split; [exact O | split; [apply in_app_iff; right; now left|]]]].
    + intros k. unfold spec_of. rewrite <- app_assoc. cbn [app]. rewrite cut_some by (eapply only_without; [exact OL | intros [E|[]]; discriminate]).
      rewrite VL, flat_app, VD, flat_gaps, app_nil_r. reflexivity.
    + intros k. unfold ungroup. rewrite cut_none; [reflexivity|].
      apply Forall_app. split; [|eapply only_without; [apply (only_gaps [] k) | intros []]].
      apply Forall_app. split; [eapply only_without; [exact OL | intros [E|[]]; discriminate]|]. constructor; [discriminate|].
      eapply only_without; [exact FD | intros [E|[]]; discriminate].
    + intros F. rewrite <- app_assoc. now apply Hs.
  - apply Forall_app in L as [L1 L]. inversion L as [|? ? Lt L2]; subst. apply Forall_app in L2 as [L2 L3]. inversion L3 as [|? ? Lc L4]; subst.
    rewrite rs_app, rs_cons, <- app_assoc in K. cbn [app] in K.
    destruct (local_scan rd wl l Hl L1 b a _ K) as (EL & RL & VL & FL & SL). apply local_of_gaps in VL. clear K.
    destruct (domain_scan wd d Hd L2) as (ED & RD & VD & FD). tokc t 64%N. pose proof (emits_special t 64%N Lt H (or_intror (or_introl eq_refl))) as RT.
    tokc c 58%N. pose proof (emits_special c 58%N Lc H0 (or_intror (or_intror (or_introl eq_refl)))) as RC.
    pose proof (loc_only EL FL) as OL. pose proof (lang_port p L4 Hp) as [Np Dp]. fold (rs p) in Dp.
    assert (RP : emits p (map EA (rs p))) by (apply emits_atom; [exact L4|]; eapply Forall_impl; [|exact Dp]; intros r; apply digit_atext).
    exists (EL ++ ES 64%N :: ED ++ ES 58%N :: map EA (rs p)).
    split; [change (t :: wd ++ c :: p) with ([t] ++ wd ++ [c] ++ p); change (ES 64%N :: ED ++ ES 58%N :: map EA (rs p)) with ([ES 64%N] ++ ED ++ [ES 58%N] ++ map EA (rs p)); auto 6 using emits_app|].
    assert (W58 : without 58%N (EL ++ ES 64%N :: ED)).
    { apply Forall_app. split; [eapply only_without; [exact OL | intros [E|[]]; discriminate]|]. constructor; [discriminate|].
      eapply only_without; [exact FD | intros [E|[]]; discriminate]. }
    split; [|split; [|split; [|split; [apply in_app_iff; right; now left|]]]].
    + intros k. unfold spec_of. rewrite <- app_assoc. cbn [app]. rewrite cut_some by (eapply only_without; [exact OL | intros [E|[]]; discriminate]).
      rewrite VL, <- app_assoc. cbn [app]. rewrite flat_app, flat_cons, flat_app, flat_gaps, app_nil_r, VD, flat_atoms, text_lexed by assumption. reflexivity.
    + intros k. unfold ungroup.
      replace ((EL ++ ES 64%N :: ED ++ ES 58%N :: map EA (rs p)) ++ repeat EG k) with ((EL ++ ES 64%N :: ED) ++ ES 58%N :: map EA (rs p) ++ repeat EG k)
        by now repeat (rewrite <- app_assoc; cbn [app]).
      rewrite cut_some by exact W58. rewrite cut_none.
      * rewrite port_like_digits; [reflexivity | | exact Dp]. destruct p; [congruence | discriminate].
      * apply Forall_app. split; [eapply only_without; [exact OL | intros [E|[]]; discriminate]|]. constructor; [discriminate|].
        eapply only_without; [exact FD | intros [E|[]]; discriminate].
    + apply Forall_app. split; [eapply only_mono; [exact OL | intros y [<-|[]]; now left]|]. constructor; [cbn; auto|].
      apply Forall_app. split; [eapply only_mono; [exact FD | intros y [<-|[]]; now left]|]. constructor; [cbn; auto | apply only_atoms].
    + intros F. rewrite <- app_assoc. now apply Hs.
Qed.

(** ** Source routes *)
Definition inner (w : word) (E : list emit) : Prop := runs_to (MN true) (rs w) (MN true) E.

Lemma emits_inner w E : emits w E -> inner w E.
Proof. intros H. apply H. Qed.
Lemma inner_app u v E F : inner u E -> inner v F -> inner (u ++ v) (E ++ F).
Proof. unfold inner. intros H1 H2. rewrite rs_app. eapply runs_app; eassumption. Qed.
Lemma inner_comma t : lexed t -> tt t = T_Comma -> inner [t] [ES 44%N].
Proof. intros L H. tokc t 44%N. unfold inner, rs. cbn [map]. rewrite H0. reflexivity. Qed.

Lemma lang_domain w : lang (Nt R_domain) w -> exists d, r_domain w d.
Proof.
  intros H. apply lang_nt in H. change (body R_domain) with g_domain in H. unfold g_domain in H. cbn [alts seqs] in H.
  assert (G : exists m u u', w = u ++ m ++ u' /\ opt_cfws u /\ opt_cfws u' /\ (lang (Nt R_dotAtom) m \/ lang (Nt R_domainLiteral) m \/ lang (Nt R_obsDomain) m)).
  { apply lang_alt in H as [H|H]; [|apply lang_alt in H as [H|H]];
      apply lang_seq in H as (u & y & -> & H1 & H2); apply lang_seq in H2 as (m & u' & -> & H2 & H3); exists m, u, u'; auto 7. }
  destruct G as (m & u & u' & -> & H1 & H2 & H3). exists (text m). now constructor.
Qed.

Definition routeE : emit -> Prop := only [46%N; 64%N; 44%N].

Lemma routeE_gaps k : Forall routeE (repeat EG k).
Proof. apply only_gaps. Qed.

Lemma star_inner g w : (forall u, lang g u -> Forall lexed u -> exists E, inner u E /\ Forall routeE E) -> lang (Star g) w -> Forall lexed w ->
  exists E, inner w E /\ Forall routeE E.
Proof.
  intros H Hw L. apply lang_star_inv in Hw as (us & -> & Hus). induction Hus as [|u us Hu Hus IH].
  - exists []. split; [apply runs_nil | constructor].
  - cbn [concat] in *. apply Forall_app in L as [L1 L2]. destruct (H u Hu L1) as (E1 & R1 & F1). destruct (IH L2) as (E2 & R2 & F2).
    exists (E1 ++ E2). split; [now apply inner_app | apply Forall_app; auto].
Qed.

Lemma at_domain w : lang (seqs [Tok T_At; Nt R_domain]) w -> Forall lexed w -> exists E, inner w (ES 64%N :: E) /\ Forall routeE E.
Proof.
  intros H L. cbn [seqs] in H. apply lang_seq in H as (u & v & -> & H1 & H2). apply Forall_app in L as [L1 L2].
  apply lang_cls in H1 as (t & -> & [Ht|[]]). apply Forall_inv in L1. apply lang_domain in H2 as [d H2]. destruct (domain_scan v d H2 L2) as (E & R & _ & F).
  symmetry in Ht. tokc t 64%N. exists E. split.
  - change (ES 64%N :: E) with ([ES 64%N] ++ E). apply inner_app; [apply emits_inner, emits_special; auto; cbn; auto | now apply emits_inner].
  - eapply only_mono; [exact F | intros y [<-|[]]; now left].
Qed.

Lemma route_scan w : lang (Nt R_obsRoute) w -> Forall lexed w ->
  exists E, inner w (E ++ [ES 58%N]) /\ Forall routeE E /\ forall F, match drop_gaps (E ++ F) with ES r :: _ => r = 64%N \/ r = 44%N | _ => False end.
Proof.
  intros H L. apply lang_nt in H. change (body R_obsRoute) with g_obsRoute in H. unfold g_obsRoute in H. cbn [seqs] in H.
  apply lang_seq in H as (w1 & w2 & -> & H & Hc). apply lang_cls in Hc as (c & -> & [Ec|[]]). apply Forall_app in L as [L Lc]. apply Forall_inv in Lc.
  apply lang_nt in H. change (body R_obsDomainList) with g_obsDomainList in H. unfold g_obsDomainList in H. cbn [seqs alts] in H.
  apply lang_seq in H as (j & v & -> & Hj & H). apply lang_seq in H as (at1 & v' & -> & Hat & H). apply lang_seq in H as (d1 & t & -> & Hd & Ht).
  apply Forall_app in L as [Lj L]. apply Forall_app in L as [La L]. apply Forall_app in L as [Ld Lt].
  assert (J : exists E, inner j E /\ Forall routeE E /\ (gaps E = true \/ exists k E', E = repeat EG k ++ ES 44%N :: E')).
  { apply lang_star_inv in Hj as (us & -> & Hus). induction Hus as [|u us Hu Hus IH].
    - exists []. split; [apply runs_nil|]. split; [constructor | now left].
    - cbn [concat] in *. apply Forall_app in Lj as [L1 L2]. destruct (IH L2) as (E2 & R2 & F2 & S2).
      apply lang_alt in Hu as [Hu|Hu].
      + destruct (emits_cfws u (lang_opt_some _ _ Hu) L1) as (k & R & _). exists (repeat EG k ++ E2).
        split; [apply inner_app; [now apply emits_inner | exact R2]|]. split; [apply Forall_app; auto using routeE_gaps|].
        destruct S2 as [S2|(k' & E' & ->)]; [left; unfold gaps; rewrite forallb_app; fold (gaps E2); rewrite S2; fold (gaps (repeat EG k)); now rewrite gaps_repeat|].
        right. exists (k + k'), E'. now rewrite repeat_app, <- app_assoc.
      + apply lang_cls in Hu as (t0 & -> & [E0|[]]). apply Forall_inv in L1. exists ([ES 44%N] ++ E2).
        split; [apply inner_app; [now apply inner_comma | exact R2]|]. split; [constructor; [cbn; auto | exact F2]|]. right. exists 0, E2. reflexivity. }
  destruct J as (EJ & RJ & FJ & SJ).
  destruct (at_domain (at1 ++ d1)) as (ED & RD & FD); [now apply lang_seq_i | apply Forall_app; auto|].
  destruct (star_inner (Seq (Tok T_Comma) (Seq (Opt (Nt R_cfws)) (Opt (Seq (Tok T_At) (Nt R_domain))))) t) as (ET & RT & FT); [|exact Ht | exact Lt|].
  { intros u Hu Lu. apply lang_seq in Hu as (u1 & u2 & -> & H1 & H2). apply lang_seq in H2 as (u3 & u4 & -> & H2 & H3).
    apply Forall_app in Lu as [Lu1 Lu]. apply Forall_app in Lu as [Lu3 Lu4]. apply lang_cls in H1 as (t0 & -> & [E0|[]]). apply Forall_inv in Lu1.
    destruct (emits_cfws u3 H2 Lu3) as (k & R & _).
    assert (X : exists E, inner u4 E /\ Forall routeE E).
    { apply lang_opt_inv in H3 as [H3| ->]; [|exists []; split; [apply runs_nil | constructor]].
      destruct (at_domain u4 H3 Lu4) as (E & RE & FE). exists (ES 64%N :: E). split; [exact RE|]. constructor; [cbn; auto | exact FE]. }
    destruct X as (E4 & R4 & F4). exists ([ES 44%N] ++ repeat EG k ++ E4). split.
    - apply inner_app; [now apply inner_comma|]. apply inner_app; [now apply emits_inner | exact R4].
    - constructor; [cbn; auto|]. apply Forall_app. auto using routeE_gaps. }
  symmetry in Ec. tokc c 58%N.
  exists (EJ ++ (ES 64%N :: ED) ++ ET). split; [|split].
  - replace (j ++ at1 ++ d1 ++ t) with (j ++ (at1 ++ d1) ++ t) by now rewrite <- !app_assoc. apply inner_app; [auto using inner_app|].
    apply emits_inner, emits_special; auto. cbn; auto.
  - apply Forall_app. split; [exact FJ|]. apply Forall_app. split; [constructor; [cbn; auto | exact FD] | exact FT].
  - intros F. rewrite <- app_assoc. destruct SJ as [SJ|(k & E' & ->)].
    + assert (X : forall m, drop_gaps (EJ ++ m) = drop_gaps m).
      { intros m. clear - SJ. induction EJ as [|e EJ IH]; [reflexivity|]. cbn [gaps forallb] in SJ. apply andb_true_iff in SJ as [S1 S2]. destruct e; try discriminate. cbn [app drop_gaps]. now apply IH. }
      rewrite X. cbn [app drop_gaps]. now left.
    + rewrite <- app_assoc, drop_gaps_repeat. cbn [app drop_gaps]. now right.
Qed.

(** ** Angle addresses *)
Lemma em_step_less a x : em (MN a) (60%N :: x) = ES 60%N :: em (MN true) x.
Proof. rewrite em_cons. reflexivity. Qed.

Lemma angle_of_spec rd E v : spec_of rd E = v -> plain_start E -> angle_of rd E = v.
Proof.
  unfold angle_of, plain_start. intros H. destruct (drop_gaps E) as [|[r| |r| |t|t] l]; try exact (fun _ => H).
  intros [H1 H2]. apply N.eqb_neq in H1, H2. now rewrite H1, H2.
Qed.

Lemma angle_scan rd w v : r_angle rd w v -> Forall lexed w -> forall b a x, tamed b (MN a) (rs w ++ x) ->
  exists k I k', runs_to (MN a) (rs w) (MN false) (repeat EG k ++ ES 60%N :: I ++ ES 62%N :: repeat EG k') /\
    angle_of rd I = v /\ Forall (only [46%N; 64%N; 58%N; 44%N]) I.
Proof.
  intros H L b a x K.
  assert (Fin : forall u lt m gt u' E, w = u ++ lt :: m ++ gt :: u' -> opt_cfws u -> opt_cfws u' -> tt lt = T_Less -> tt gt = T_Greater ->
    inner m E -> angle_of rd E = v -> Forall (only [46%N; 64%N; 58%N; 44%N]) E ->
    exists k I k', runs_to (MN a) (rs w) (MN false) (repeat EG k ++ ES 60%N :: I ++ ES 62%N :: repeat EG k') /\
    angle_of rd I = v /\ Forall (only [46%N; 64%N; 58%N; 44%N]) I).
  { intros u lt m gt u' E -> Hu Hu' Hlt Hgt R V F. apply Forall_app in L as [L1 L]. inversion L as [|? ? Llt L2]; subst.
    apply Forall_app in L2 as [L2 L3]. inversion L3 as [|? ? Lgt L4]; subst.
    destruct (emits_cfws u Hu L1) as (k & R1 & _). destruct (emits_cfws u' Hu' L4) as (k' & R3 & _). exists k, E, k'. split; [|auto].
    rewrite rs_app, rs_cons, rs_app, rs_cons. tokc lt 60%N. tokc gt 62%N. eapply runs_app; [apply R1|].
    change (ES 60%N :: E ++ ES 62%N :: repeat EG k') with ([ES 60%N] ++ E ++ [ES 62%N] ++ repeat EG k').
    eapply runs_step; [reflexivity|]. eapply runs_app; [exact R|]. eapply runs_step; [reflexivity | apply R3]. }
  assert (Less : forall u lt m gt u', w = u ++ lt :: m ++ gt :: u' -> opt_cfws u -> tt lt = T_Less ->
    Forall lexed m /\ tamed b (MN true) (rs m ++ rs (gt :: u') ++ x)).
  { intros u lt m gt u' -> Hu Hlt. apply Forall_app in L as [L1 L]. inversion L as [|? ? Llt L2]; subst. apply Forall_app in L2 as [L2 L3]. split; [exact L2|].
    destruct (emits_cfws u Hu L1) as (k & R1 & _). rewrite rs_app, rs_cons, rs_app, <- app_assoc in K. cbn [app] in K. apply (tamed_emits _ _ _ _ _ R1) in K.
    tokc lt 60%N. rewrite <- app_assoc in K. exact (tamed_next b (MN a) [60%N] (rs m ++ rs (gt :: u') ++ x) K). }
  destruct H as [u lt s v gt u' Hu Hlt Hs Hgt Hu'|u lt gt u' Hu Hlt Hgt Hu'|u lt r s v gt u' Hu Hlt Hr Hs Hgt Hu'].
  - destruct (Less u lt s gt u' eq_refl Hu Hlt) as [Ls Ks]. destruct (spec_scan rd s v Hs Ls b true _ Ks) as (E & R & V & _ & O & _ & P).
    apply (Fin u lt s gt u' E); auto using emits_inner.
    + specialize (V 0). specialize (P []). cbn [repeat] in V. rewrite app_nil_r in V, P. now apply angle_of_spec.
    + eapply only_mono; [exact O|]. intros y Hy. cbn [In] in *. tauto.
  - apply (Fin u lt [] gt u' []); auto. apply runs_nil.
  - destruct (Less u lt (r ++ s) gt u') as [Lrs Krs]; [now rewrite <- app_assoc | exact Hu | exact Hlt|].
    apply Forall_app in Lrs as [Lr Ls]. destruct (route_scan r Hr Lr) as (ER & RR & FR & SR).
    rewrite rs_app, <- app_assoc in Krs.
    assert (Ks : tamed b (MN true) (rs s ++ rs (gt :: u') ++ x)).
    { exact (tamed_runs _ _ _ _ _ _ RR Krs). }
    destruct (spec_scan rd s v Hs Ls b true _ Ks) as (E & R & V & _ & O & _ & P).
    apply (Fin u lt (r ++ s) gt u' ((ER ++ [ES 58%N]) ++ E)); auto.
    + now rewrite <- app_assoc.
    + apply inner_app; [exact RR | now apply emits_inner].
    + assert (W : without 58%N ER) by (apply (only_without [46%N; 64%N; 44%N]); [exact FR | cbn [In]; intuition discriminate]).
      unfold angle_of. rewrite <- app_assoc. cbn [app]. specialize (SR (ES 58%N :: E)). rewrite (cut_some 58%N ER E W).
      specialize (V 0). cbn [repeat] in V. rewrite app_nil_r in V. rewrite V.
      destruct (drop_gaps (ER ++ ES 58%N :: E)) as [|[r0| |r0| |t0|t0] l0]; try (now destruct SR).
      destruct SR as [-> | ->]; reflexivity.
    + apply Forall_app. split; [apply Forall_app; split; [apply (only_mono [46%N; 64%N; 44%N]); [exact FR | intros y Hy; cbn [In] in *; tauto] | constructor; [cbn; auto | constructor]]|].
      apply (only_mono [46%N; 64%N; 58%N]); [exact O|]. intros y Hy. cbn [In] in *. tauto.
Qed.

(** ** Mailboxes *)
Definition noSep (l : list emit) : Prop := Forall (fun x => x <> ESep) l.

Lemma only_noSep rs l : Forall (only rs) l -> noSep l.
Proof. intros H. eapply Forall_impl; [|exact H]. intros x Hx ->. exact Hx. Qed.

Lemma takeA_head a y m E x : runs_to (MN a) y m E -> E <> [] -> noA E -> takeA (y ++ x) = [].
Proof.
  intros R N A. destruct (em_takeA a (y ++ x)) as (z & H & _). rewrite em_app, (runs_em _ _ _ _ R) in H.
  destruct (takeA (y ++ x)); [reflexivity|]. destruct E as [|e E]; [congruence|]. cbn in H. injection H as -> _. destruct A.
Qed.

Lemma mailbox_scan rd w m : r_mailbox rd w m -> Forall lexed w -> forall b x, tamed b (MN false) (rs w ++ x) ->
  (b = true -> one_fold (rs w)) ->
  exists E, runs_to (MN false) (rs w) (MN false) E /\ (forall k, mailbox_of rd (E ++ repeat EG k) = m) /\
    (forall k, ungroup (E ++ repeat EG k) = E ++ repeat EG k) /\ (exists r, In (ES r) E) /\ noSep E.
Proof.
  intros H L b x K O.
  assert (Box : forall N k I k' n v, Forall (only [46%N; 64%N]) N -> (forall j, name_of rd (N ++ repeat EG j) = n) ->
    angle_of rd I = v -> Forall (only [46%N; 64%N; 58%N; 44%N]) I ->
    let E := N ++ repeat EG k ++ ES 60%N :: I ++ ES 62%N :: repeat EG k' in
    (forall j, mailbox_of rd (E ++ repeat EG j) = mkAddr n v) /\ (forall j, ungroup (E ++ repeat EG j) = E ++ repeat EG j) /\
    (exists r, In (ES r) E) /\ noSep E).
  { intros N k I k' n v FN VN VI FI E.
    assert (W : forall c, ~ In c [46%N; 64%N] -> without c (N ++ repeat EG k)).
    { intros c Hc. apply Forall_app. split; [now apply (only_without [46%N; 64%N])|]. apply (only_without []); [apply only_gaps | intros []]. }
    assert (EE : forall j, E ++ repeat EG j = (N ++ repeat EG k) ++ ES 60%N :: I ++ ES 62%N :: repeat EG (k' + j)).
    { intros j. unfold E. rewrite repeat_app. now repeat (rewrite <- app_assoc; cbn [app]). }
    split; [|split; [|split]].
    - intros j. rewrite EE. unfold mailbox_of. rewrite cut_some by (apply W; intros [X|[X|[]]]; discriminate).
      rewrite VN, cut_some, VI; [reflexivity|]. eapply only_without; [exact FI | cbn [In]; intuition discriminate].
    - intros j. rewrite EE. unfold ungroup. set (T := I ++ ES 62%N :: repeat EG (k' + j)).
      destruct (cut 58%N T) as [[T1 T2]|] eqn:C.
      + assert (X : forall A, without 58%N A -> cut 58%N (A ++ ES 60%N :: T) = Some (A ++ ES 60%N :: T1, T2)).
        { intros A HA. induction HA as [|y A Hy HA IH]; cbn [app cut]; [cbn [N.eqb]; rewrite C; reflexivity|]. rewrite IH.
          destruct y; try reflexivity. destruct (N.eqb_spec r 58%N); [subst; congruence | reflexivity]. }
        rewrite X by (apply W; intros [Y|[Y|[]]]; discriminate). rewrite cut_some by (apply W; intros [Y|[Y|[]]]; discriminate). reflexivity.
      + assert (X : forall A, without 58%N A -> cut 58%N (A ++ ES 60%N :: T) = None).
        { intros A HA. induction HA as [|y A Hy HA IH]; cbn [app cut]; [cbn [N.eqb]; rewrite C; reflexivity|]. rewrite IH.
          destruct y; try reflexivity. destruct (N.eqb_spec r 58%N); [subst; congruence | reflexivity]. }
        rewrite X by (apply W; intros [Y|[Y|[]]]; discriminate). reflexivity.
    - exists 60%N. unfold E. rewrite !in_app_iff. right. right. now left.
    - unfold E, noSep. apply Forall_app. split; [exact (only_noSep _ _ FN)|]. apply Forall_app. split.
      + apply (only_noSep []), only_gaps.
      + constructor; [discriminate|]. apply Forall_app. split; [now apply (only_noSep _ _ FI)|]. constructor; [discriminate|]. apply (only_noSep []), only_gaps. }
  destruct H as [wn n wa v Hn Ha|wa v Ha|w v Hs].
  - apply Forall_app in L as [Ln La]. rewrite rs_app, <- app_assoc in K.
    destruct (display_scan rd b false (rs wa ++ x) wn n Hn Ln K) as (N & RN & VN & DN).
    { intros Hb. specialize (O Hb). rewrite rs_app in O. exact (one_fold_sub [] _ _ O). }
    apply (tamed_emits _ _ _ _ _ RN) in K.
    destruct (angle_scan rd wa v Ha La b false x K) as (k & I & k' & RA & VA & FA).
    destruct (Box N k I k' n v (disp_only N DN) VN VA FA) as (B1 & B2 & B3 & B4).
    eexists. split; [|split; [exact B1 | split; [exact B2 | split; [exact B3 | exact B4]]]].
    rewrite rs_app. eapply runs_app; [apply RN | exact RA].
  - destruct (angle_scan rd wa v Ha L b false x K) as (k & I & k' & RA & VA & FA).
    destruct (Box [] k I k' [] v) as (B1 & B2 & B3 & B4); auto.
    { intros j. unfold name_of. clear. induction j as [|j IH]; [reflexivity | exact IH]. }
    eexists. split; [|split; [exact B1 | split; [exact B2 | split; [exact B3 | exact B4]]]]. exact RA.
  - destruct (spec_scan rd w v Hs L b false x K) as (E & R & V & U & F & HI & _). exists E. split; [apply R|]. split; [|split; [exact U | split; [eauto | now apply (only_noSep _ _ F)]]].
    intros k. unfold mailbox_of. rewrite cut_none; [now rewrite V|]. apply Forall_app. split.
    + eapply only_without; [exact F | cbn [In]; intuition discriminate].
    + apply (only_without []); [apply only_gaps | intros []].
Qed.
