(** What the scanner of ScanSpec.v makes of the texts of AddrText.v. *)
From Coq Require Import String List NArith ZArith Bool Arith Lia.
From Verif Require Import Lexer Grammar Utf8 Strs Mime GoTime Parser Walker Api Spec ParserFacts
  WalkerFacts Static Total Cfws LangFacts LexFacts Utf8Facts First DateSpec AddrSpec Chosen AddrSem CharFacts PropApi PropInv
  ScanSpec ScanFacts ScanEnc ScanWords ScanName ScanAddr ScanBox ScanList PropScan MboxList AddrText TextLang.
Import ListNotations.

Definition emitsT (x : list rune) (E : list emit) : Prop := forall a, runs_to (MN a) x (MN a) E.

Lemma emitsT_app x y E F : emitsT x E -> emitsT y F -> emitsT (x ++ y) (E ++ F).
Proof. intros H1 H2 a. eapply runs_app; [apply H1 | apply H2]. Qed.

Lemma emitsT_nil : emitsT [] [].
Proof. intros a. apply runs_nil. Qed.

Lemma gap_emits g : ogap g -> exists k, emitsT g (repeat EG k) /\ (k = 0 -> g = []).
Proof.
  intros H. apply gap_lang in H as [B L]. destruct (emits_cfws (toks g) L (toks_lexed_bmp _ B)) as (k & E & K & _). exists k. split.
  - intros a. specialize (E a). now rewrite rs_toks in E.
  - intros ->. specialize (K eq_refl). destruct g; [reflexivity | discriminate K].
Qed.

Lemma long_emits g : long_gap g -> exists k, emitsT g (repeat EG k) /\ (k = 0 -> g = []).
Proof.
  induction 1 as [|g x G H (k & K & Z)]; [exists 0; split; [apply emitsT_nil | reflexivity]|]. destruct (gap_emits g G) as (j & J & Y).
  exists (j + k). rewrite repeat_app. split; [now apply emitsT_app|]. intros E. rewrite Y, Z by lia. reflexivity.
Qed.

Lemma wgap_emits enc g : wgap enc g -> exists k, emitsT g (repeat EG k) /\ (k = 0 -> g = []).
Proof. intros [G|[_ G]]; [now apply gap_emits | now apply long_emits]. Qed.

Lemma no_intro_spec x : no_intro x -> intro x = false.
Proof.
  intros H. destruct (intro x) eqn:E; [|reflexivity]. exfalso. revert H. induction x as [|r x IH]; [discriminate E|]. intros H.
  destruct x as [|r2 x]; [discriminate E|]. change (((r =? 61) && (r2 =? 63) || intro (r2 :: x))%N%bool = true) in E. apply orb_true_iff in E as [E|E].
  - apply andb_true_iff in E as [E1 E2]. apply N.eqb_eq in E1, E2. subst r r2. apply (H [] x). reflexivity.
  - apply IH; [exact E|]. intros p q Hq. apply (H (r :: p) q). cbn [app]. now f_equal.
Qed.

Lemma intro_no_spec x : intro x = false -> no_intro x.
Proof.
  intros E p q ->. induction p as [|r p IH]; [discriminate E|]. apply IH. cbn [app] in E. exact (intro_cons_false _ _ E).
Qed.

(** ** Quoted strings *)
Lemma fold_ws u : fold u -> Forall (fun r => ws r = true) u.
Proof.
  assert (B : forall a, blanks a -> Forall (fun r => ws r = true) a).
  { intros a H. eapply Forall_impl; [|exact H]. intros r Hr. unfold blank_char in Hr. apply orb_true_iff in Hr as [E|E]; apply N.eqb_eq in E; subst r; reflexivity. }
  intros [a N H|a b Ha N Hb]; [auto|]. rewrite !Forall_app. repeat split; auto; repeat constructor.
Qed.

Lemma ofold_ws u : optional fold u -> Forall (fun r => ws r = true) u.
Proof. intros [->|H]; [constructor | now apply fold_ws]. Qed.

Lemma quoted_plain r : quoted_char r = true -> qplain r = true.
Proof.
  intros H. pose proof (quoted_char_bmp r H) as B. rewrite <- (qtext_class r B), (qtext_quoted r B). exact H.
Qed.

Lemma vanishes_lost r : vanishes r = lost r.
Proof.
  unfold vanishes, lost. f_equal. f_equal. destruct (N.leb_spec r 31), (N.ltb_spec r 32); (reflexivity || lia).
Qed.

Lemma quoted_body_runs b t : quoted_body b t -> forall a acc, runs_to (MQ a acc []) (b ++ [34%N]) (MN a) [EQ (acc ++ t)].
Proof.
  induction 1 as [u Hu|u r b t Hu Hr H IH|u r b t Hu Hr H IH]; intros a acc.
  - change [EQ (acc ++ [])] with ([] ++ [EQ (acc ++ [])]). eapply runs_app; [apply runs_qws, ofold_ws, Hu|]. rewrite app_nil_r. apply (runs_step _ _ (MN a) [EQ acc]); [reflexivity | apply runs_nil].
  - rewrite <- app_assoc. eapply (runs_app _ _ _ []); [apply runs_qws, ofold_ws, Hu|]. cbn [app].
    apply (runs_step _ _ _ []  _ (MN a) _ (step_qplain a acc u r (quoted_plain r Hr))). specialize (IH a (acc ++ u ++ [r])). now rewrite <- !app_assoc in IH.
  - rewrite <- app_assoc. eapply (runs_app _ _ _ []); [apply runs_qws, ofold_ws, Hu|]. cbn [app].
    apply (runs_step _ _ (MQE a acc u) [] _ (MN a) [_]); [reflexivity|].
    apply (runs_step _ _ (MQ a (acc ++ u ++ if lost r then [] else [r]) []) [] _ (MN a) [_]); [reflexivity|]. rewrite vanishes_lost.
    specialize (IH a (acc ++ u ++ if lost r then [] else [r])). now rewrite <- !app_assoc in IH.
Qed.

Lemma quoted_emits x t : quoted x t -> emitsT x [EQ t].
Proof.
  intros (b & -> & H) a. cbn [app]. apply (runs_step _ _ (MQ a [] []) [] _ (MN a) [EQ t]); [reflexivity|]. exact (quoted_body_runs b t H a []).
Qed.

(** ** Runs of atom characters *)
Lemma okruns_join b E : forall p F, okruns b p E -> noA F -> okruns b [] F -> okruns b p (E ++ F).
Proof.
  induction E as [|x E IH]; intros p F H N K; [now apply okruns_noA|]. destruct x; cbn [okruns app] in *; try (destruct H; split; auto); auto.
Qed.

Lemma okruns_mono b E : forall p, okruns false p E -> okruns b p E.
Proof.
  assert (O : forall p, okrun false p -> okrun b p) by (intros p [H|[H _]]; [now left | discriminate H]).
  induction E as [|x E IH]; intros p H; [now apply O|]. destruct x; cbn [okruns] in *; try (destruct H; split; auto); auto.
Qed.

Lemma okruns_gapsT b k p : okrun b p -> okruns b p (repeat EG k).
Proof. intros H. destruct k; [exact H|]. split; [exact H|]. clear. induction k; cbn; auto using okrun_nil. Qed.

Lemma noA_gaps k F : noA F -> noA (repeat EG k ++ F).
Proof. destruct k; [auto | exact (fun _ => I)]. Qed.

Lemma okruns_run b p a : okrun b (p ++ a) -> okruns b p (map EA a).
Proof. intros H. rewrite <- (app_nil_r (map EA a)). now apply okruns_atoms. Qed.

Lemma okruns_dots d : forall p, intro (p ++ d) = false -> intro p = false -> okruns false p (map dote d).
Proof.
  induction d as [|r d IH]; intros p H Hp; [now left|]. cbn [map]. unfold dote at 1. destruct (r =? 46)%N eqn:E.
  - split; [now left|]. change (p ++ r :: d) with (p ++ ([r] ++ d)) in H. apply intro_app_false in H as [_ H]. cbn [app] in H. apply IH; [exact (intro_cons_false _ _ H) | reflexivity].
  - cbn [okruns]. change (p ++ r :: d) with (p ++ ([r] ++ d)) in H. rewrite app_assoc in H. apply IH; [exact H|]. now apply intro_app_false in H.
Qed.

Lemma plain_run rd p : intro p = false -> run_value rd p = encode p.
Proof.
  intros H. unfold run_value. destruct (enc_words p) as [l|] eqn:E; [|reflexivity]. apply enc_words_sound in E as (-> & F & N). exfalso.
  destruct F as [|w l Hw F]; [apply N; reflexivity|]. apply enc1_nonnil in Hw as (y & ->). discriminate H.
Qed.

Lemma decoded_flat rd E : forall p, okruns false p E -> decoded rd p E = encode p ++ flat E.
Proof.
  assert (O : forall p, okrun false p -> run_value rd p = encode p) by (intros p [H|[H _]]; [now apply plain_run | discriminate H]).
  induction E as [|x E IH]; intros p H.
  - cbn [decoded flat]. rewrite O by exact H. now rewrite app_nil_r.
  - destruct x; cbn [decoded okruns] in *; try (destruct H as [H1 H2]; rewrite (O p H1), (IH [] H2); reflexivity).
    rewrite (IH _ H). unfold encode. rewrite flat_map_app. cbn [flat flat_map]. rewrite <- !app_assoc. reflexivity.
Qed.

(** ** Names *)
Definition itemE (i : item) : list emit :=
  match i with IAtom a => map EA a | IEnc l => map EA (concat l) | IQuoted _ t => [EQ t] | IMark r => [ES r] end.

Lemma item_emits enc i : item_ok enc i -> emitsT (item_text i) (itemE i).
Proof.
  destruct i as [a|l|q t|r]; cbn [item_ok item_text itemE].
  - intros [[_ H] _] a0. now apply runs_atoms.
  - intros (_ & _ & H) a0. apply runs_atoms, encl_atext, encoded_encl, H.
  - apply quoted_emits.
  - intros [->| ->] a; (eapply (runs_step _ _ _ [_] []); [apply step_special; vm_compute; auto | apply runs_nil]).
Qed.

Lemma itemE_disp enc i : item_ok enc i -> Forall dispE (itemE i).
Proof.
  destruct i as [a|l|q t|r]; cbn [item_ok itemE]; intros H; [apply dispE_atoms | apply dispE_atoms | |]; (apply Forall_cons; [|apply Forall_nil]); cbn [dispE]; auto.
Qed.

(** an item that is a run, as a run *)
Definition run_of (i : item) : list rune := match i with IAtom a => a | IEnc l => concat l | _ => [] end.

Lemma run_itemE i : is_run i = true -> itemE i = map EA (run_of i).
Proof. destruct i; (discriminate || reflexivity). Qed.

Lemma run_okrun enc i : item_ok enc i -> is_run i = true -> okrun enc (run_of i) /\ run_of i <> [].
Proof.
  destruct i as [a|l|q t|r]; try discriminate; cbn [item_ok run_of]; intros H _.
  - destruct H as [[N _] H]. split; [left; now apply no_intro_spec | exact N].
  - destruct H as (E & N & H). split; [right; split; [exact E|]; apply is_enc_encl; auto using encoded_encl, encoded_nonnil | now apply encoded_nonnil].
Qed.

Definition state (n : gostring) (prev : option item) : nstate :=
  (n, match prev with Some (IMark _) => true | _ => false end, match prev with Some (IEnc _) => true | _ => false end).

Lemma enc_value_item l rd : enc_value rd l = item_value rd (IEnc l).
Proof. reflexivity. Qed.

Lemma run_flush rd enc i n prev : item_ok enc i -> is_run i = true -> (prev = None -> n = []) ->
  flush rd (state n prev) (run_of i) = state (n ++ (if joins prev i then [] else match n with [] => [] | _ => bs " " end) ++ item_value rd i) (Some i).
Proof.
  intros H R P. destruct i as [a|l|q t|r]; try discriminate R; cbn [item_ok run_of] in *.
  - destruct H as [[N _] HI]. apply no_intro_spec in HI. unfold state. rewrite flush_atom; auto.
    2: { destruct (enc_head a) as [[w y]|] eqn:E; [|reflexivity]. exfalso. apply enc_head_sound in E as [-> Hw]. apply enc1_nonnil in Hw as (z & ->). discriminate HI. }
    do 2 f_equal. unfold glue, joins. destruct prev as [[]|]; cbn [item_value app]; try (destruct n; [reflexivity | now rewrite <- app_assoc]); auto. now rewrite (P eq_refl).
  - destruct H as (_ & N & F). unfold flush, state. assert (E : exists r c, concat l = r :: c) by (destruct (concat l) eqn:E; [|eauto]; exfalso; now apply (encoded_nonnil l N F)).
    destruct E as (r & c & E). rewrite E. rewrite <- E. assert (X : enc_split (concat l) = (l, [])).
    { rewrite <- (app_nil_r (concat l)). apply enc_split_spec; [|reflexivity]. eapply Forall_impl; [|exact F]. apply encoded_enc1. }
    rewrite X. destruct l as [|l0 l]; [exfalso; apply N; reflexivity|]. cbn iota.
    rewrite enc_value_item. destruct prev as [[]|]; cbn [joins]; unfold glue; try (destruct n; [reflexivity | now rewrite <- app_assoc]); auto. now rewrite (P eq_refl).
Qed.

Lemma other_item rd enc i n prev : item_ok enc i -> is_run i = false -> (prev = None -> n = []) -> exists x, itemE i = [x] /\ (match x with EA _ => false | _ => true end) = true /\
  nitem (state n prev) x = state (n ++ (if joins prev i then [] else match n with [] => [] | _ => bs " " end) ++ item_value rd i) (Some i).
Proof.
  intros H R P. destruct i as [a|l|q t|r]; try discriminate R; cbn [itemE].
  - exists (EQ t). repeat split. unfold nitem, state. do 2 f_equal. unfold glue, joins. destruct prev as [[]|]; cbn [item_value app]; try (destruct n; [reflexivity | now rewrite <- app_assoc]); auto. now rewrite (P eq_refl).
  - exists (ES r). repeat split. unfold nitem, state. destruct prev as [[]|]; reflexivity.
Qed.

Lemma names_lgaps rd k st p x F : (match x with EA _ => false | _ => true end) = true ->
  names rd st p (repeat EG k ++ x :: F) = names rd (nitem (flush rd st p) x) [] F.
Proof.
  intros H. destruct k; [destruct x; try discriminate H; reflexivity|]. rewrite names_app, nst_gaps. cbn [fst snd].
  destruct x; try discriminate H; cbn [names]; rewrite flush_nil; reflexivity.
Qed.

Lemma names_rgaps rd k st p a F : (p <> [] -> k <> 0) ->
  names rd st p (repeat EG k ++ map EA a ++ F) = names rd (flush rd st p) a F.
Proof.
  intros H. rewrite names_app. destruct k.
  - cbn [repeat nst fst snd]. destruct p as [|r p]; [|exfalso; apply H; [discriminate | reflexivity]]. rewrite flush_nil, names_app, nst_atoms. reflexivity.
  - rewrite nst_gaps. cbn [fst snd]. rewrite names_app, nst_atoms. reflexivity.
Qed.

Lemma items_scan rd enc l : forall ar, items_ok enc ar l -> exists E, emitsT (name_text l) E /\ Forall dispE E /\
  (forall st p n prev k, flush rd st p = state n prev -> (p <> [] -> ar = true) -> (prev = None -> n = []) ->
     names rd st p (E ++ repeat EG k) = name_from rd n prev l) /\
  (forall p, okrun enc p -> (p <> [] -> ar = true) -> okruns enc p E).
Proof.
  induction l as [|[g i] l IH]; intros ar H.
  - exists []. split; [apply emitsT_nil|]. split; [constructor|]. split; [|intros p Hp _; exact Hp].
    intros st p n prev k E _ _. cbn [app name_from]. change (repeat EG k) with ([] ++ repeat EG k).
    enough (fst (fst (flush rd st p)) = names rd st p ([] ++ repeat EG k)) as <- by (now rewrite E).
    cbn [app]. destruct k; [reflexivity|]. rewrite <- (app_nil_r (repeat EG (S k))), names_app, nst_gaps. cbn [fst snd names]. now rewrite flush_nil.
  - destruct H as (Hg & Hi & Ha & H). destruct (IH _ H) as (E & EE & D & V & K). destruct (wgap_emits enc g Hg) as (j & EG' & J).
    exists (repeat EG j ++ itemE i ++ E). split; [change (name_text ((g, i) :: l)) with ((g ++ item_text i) ++ name_text l); rewrite <- app_assoc; apply emitsT_app; [exact EG'|]; apply emitsT_app; [now apply (item_emits enc) | exact EE]|].
    split; [rewrite !Forall_app; repeat split; auto using dispE_gaps; now apply (itemE_disp enc)|]. destruct (is_run i) eqn:R.
    + assert (PJ : forall p : list rune, (p <> [] -> ar = true) -> p <> [] -> j <> 0) by (intros p Hp Np Hj; apply Ha; auto).
      destruct (run_okrun enc i Hi R) as [OK NE]. rewrite (run_itemE i R). split.
      * intros st p n prev k F Hp Hprev. rewrite <- !app_assoc. rewrite names_rgaps by (apply PJ; exact Hp). rewrite F. cbn [name_from].
        apply V; [now apply (run_flush rd enc) | reflexivity | discriminate].
      * intros p Hp Hpa. destruct j.
        -- destruct p as [|r p]; [|exfalso; apply (PJ (r :: p)); auto; discriminate]. cbn [repeat app]. apply okruns_atoms. apply K; auto.
        -- cbn [repeat app okruns]. split; [exact Hp|]. clear - K OK. induction j; cbn [repeat app]; [apply okruns_atoms, K; auto | split; [apply okrun_nil | exact IHj]].
    + split.
      * intros st p n prev k F Hp Hprev. destruct (other_item rd enc i n prev Hi R Hprev) as (x & -> & X & S). rewrite <- !app_assoc. cbn [app]. rewrite names_lgaps by exact X. rewrite F. cbn [name_from].
        apply V; [rewrite flush_nil; exact S | congruence | discriminate].
      * intros p Hp _. destruct (other_item rd enc i [] None Hi R (fun _ => eq_refl)) as (x & -> & X & _).
        assert (KX : forall q, okrun enc q -> okruns enc q ([x] ++ E)).
        { intros q Hq. destruct x; try discriminate X; (split; [exact Hq | apply K; [apply okrun_nil | congruence]]). }
        destruct j; [now apply KX|]. cbn [repeat app okruns]. split; [exact Hp|]. clear - KX. induction j; cbn [repeat app]; [apply KX, okrun_nil | split; [apply okrun_nil | exact IHj]].
Qed.

Lemma name_scan rd enc l : name_ok enc l -> exists E, emitsT (name_text l) E /\ Forall dispE E /\
  (forall k, name_of rd (E ++ repeat EG k) = name_value rd l) /\ okruns enc [] E.
Proof.
  intros [_ H]. destruct (items_scan rd enc l _ H) as (E & EE & D & V & K). exists E. split; [exact EE|]. split; [exact D|]. split.
  - intros k. apply V; [reflexivity | congruence | reflexivity].
  - apply K; [apply okrun_nil | congruence].
Qed.

(** ** Local parts and domains *)
Lemma gaps_app a b : gaps (a ++ b) = gaps a && gaps b.
Proof. apply forallb_app. Qed.

Definition partE (E : list emit) (v : gostring) : Prop := flat E = v /\ Forall locE E /\ gaps E = false /\ okruns false [] E.

Lemma loc_noES E r : Forall locE E -> r <> 46%N -> Forall (fun x => x <> ES r) E.
Proof. intros H N. eapply Forall_impl; [|exact H]. intros x Hx ->. exact (N Hx). Qed.

Lemma plain_words_E rd enc g i g' : ogap g -> item_ok enc i -> (exists a, i = IAtom a) \/ (exists q t, i = IQuoted q t) -> ogap g' ->
  exists E, emitsT (g ++ item_text i ++ g') E /\ partE E (item_value rd i).
Proof.
  intros Hg Hi P Hg'. destruct (gap_emits g Hg) as (k & K & _), (gap_emits g' Hg') as (k' & K' & _). exists (repeat EG k ++ itemE i ++ repeat EG k').
  split; [apply emitsT_app; [exact K|]; apply emitsT_app; [now apply (item_emits enc) | exact K']|].
  assert (F : flat (itemE i) = item_value rd i /\ Forall locE (itemE i) /\ gaps (itemE i) = false /\ okruns false [] (itemE i)).
  { destruct P as [[a ->]|(q & t & ->)]; cbn [itemE item_value item_ok] in *.
    - destruct Hi as [[N _] HI]. split; [apply flat_atoms|]. split; [apply locE_atoms|]. split; [destruct a; [exfalso; apply N; reflexivity | reflexivity]|]. apply okruns_run. left. now apply no_intro_spec.
    - split; [cbn; now rewrite app_nil_r|]. split; [repeat constructor|]. split; [reflexivity|]. split; apply okrun_nil. }
  destruct F as (F1 & F2 & F3 & F4). split; [rewrite !flat_app, !flat_gaps, F1; now rewrite app_nil_r|]. split; [rewrite !Forall_app; repeat split; auto using locE_gaps|].
  split; [rewrite !gaps_app, F3, andb_false_l; apply andb_false_r|].
  assert (X : okruns false [] (itemE i ++ repeat EG k')) by (apply okruns_join; auto; [destruct k'; exact I | apply okruns_gapsT, okrun_nil]).
  clear - X. induction k; [exact X|]. split; [apply okrun_nil | exact IHk].
Qed.

Lemma okruns_ES b E r F : okruns b [] E -> okruns b [] F -> okruns b [] (E ++ ES r :: F).
Proof. intros H1 H2. apply okruns_join; [exact H1 | exact I | split; [apply okrun_nil | exact H2]]. Qed.

Lemma encode_app x y : encode (x ++ y) = encode x ++ encode y.
Proof. apply flat_map_app. Qed.

Lemma special_emits c : In c dots -> emitsT [c] [ES c].
Proof. intros H a. apply (runs_step _ _ (MN a) [ES c] [] (MN a) []); [now apply step_special | apply runs_nil]. Qed.

Lemma words_scan rd enc x v : words_m rd enc x v -> exists E, emitsT x E /\ partE E v.
Proof.
  induction 1 as [g i g' Hg Hi P Hg'|g i g' x v Hg Hi P Hg' H (E & EE & V1 & V2 & V3 & V4)].
  - now apply (plain_words_E rd enc).
  - destruct (plain_words_E rd enc g i g' Hg Hi P Hg') as (E1 & EE1 & U1 & U2 & U3 & U4). exists (E1 ++ ES 46%N :: E).
    split; [replace (g ++ item_text i ++ g' ++ bs "." ++ x) with ((g ++ item_text i ++ g') ++ ([46%N] ++ x)) by (now rewrite <- !app_assoc); apply emitsT_app; [exact EE1|]; change (ES 46%N :: E) with ([ES 46%N] ++ E); apply emitsT_app; [apply special_emits; now left | exact EE]|].
    split; [rewrite flat_app, U1, flat_cons, V1; reflexivity|]. split; [rewrite Forall_app; split; [exact U2 | constructor; [reflexivity | exact V2]]|].
    split; [rewrite gaps_app, U3; reflexivity | now apply okruns_ES].
Qed.

Lemma dots_partE d : dot_atom d -> no_intro d -> flat (map dote d) = encode d /\ Forall locE (map dote d) /\ gaps (map dote d) = false /\ okruns false [] (map dote d).
Proof.
  intros H N. split; [apply flat_dots|]. split; [apply locE_dots|]. split.
  - destruct (dot_atom_head d H) as (r & d' & -> & _). cbn [map]. unfold dote at 1. destruct (r =? 46)%N; reflexivity.
  - apply okruns_dots; [now apply no_intro_spec | reflexivity].
Qed.

Lemma gapped k k' E v : partE E v -> partE (repeat EG k ++ E ++ repeat EG k') v.
Proof.
  intros (F1 & F2 & F3 & F4). split; [rewrite !flat_app, !flat_gaps, F1; now rewrite app_nil_r|]. split; [rewrite !Forall_app; repeat split; auto using locE_gaps|].
  split; [rewrite !gaps_app, F3, andb_false_l; apply andb_false_r|].
  assert (X : okruns false [] (E ++ repeat EG k')) by (apply okruns_join; auto; [destruct k'; exact I | apply okruns_gapsT, okrun_nil]).
  clear - X. induction k; [exact X|]. split; [apply okrun_nil | exact IHk].
Qed.

Lemma local_scanT rd enc x v : local_m rd enc x v -> exists E, emitsT x E /\ partE E v.
Proof.
  intros [g l g' Hg Hl N Hg'|x' v' H]; [|now apply words_scan in H].
  destruct (gap_emits g Hg) as (k & K & _), (gap_emits g' Hg') as (k' & K' & _). exists (repeat EG k ++ map dote l ++ repeat EG k').
  split; [apply emitsT_app; [exact K|]; apply emitsT_app; [intros a; now apply runs_adots, dot_atom_adot | exact K']|].
  apply gapped. now apply dots_partE.
Qed.

Lemma part_local rd E v : partE E v -> local_of rd E = v.
Proof. intros (F & _ & _ & K). unfold local_of. destruct (forallb dotty (trim E)); [exact F|]. rewrite decoded_flat by exact K. exact F. Qed.

Lemma literal_body_bracketed b : literal_body b -> Forall (fun r => literal_char r = true) b.
Proof.
  assert (W : forall u, optional fold u -> Forall (fun r => literal_char r = true) u).
  { intros u H. eapply Forall_impl; [|apply ofold_ws; exact H]. cbv beta. intros r Hr. unfold literal_char. unfold ws in Hr. now rewrite Hr. }
  induction 1 as [u Hu|u r b Hu Hr H IH]; [auto|]. rewrite !Forall_app. repeat split; auto. constructor; [|constructor]. unfold literal_char. unfold dtext in Hr. rewrite Hr. apply orb_true_r.
Qed.

Lemma domain_scanT g d g' : ogap g -> domain_m d -> ogap g' -> exists E, emitsT (g ++ d ++ g') E /\ flat E = encode d /\ Forall (only [46%N]) E /\ okruns false [] E.
Proof.
  intros Hg H Hg'. destruct (gap_emits g Hg) as (k & K & _), (gap_emits g' Hg') as (k' & K' & _).
  assert (exists E, emitsT d E /\ flat E = encode d /\ Forall (only [46%N]) E /\ okruns false [] E) as (E & F1 & F2 & F3 & F4).
  { destruct H as [d H N|b H].
    - destruct (dots_partE d H N) as (F1 & F2 & F3 & F4). exists (map dote d). split; [intros a; now apply runs_adots, dot_atom_adot|]. split; [exact F1|]. split; [now apply loc_only | exact F4].
    - exists [EL (bs "[" ++ b ++ bs "]")]. split; [intros a; apply runs_bracketed; exists b; split; [reflexivity | now apply literal_body_bracketed]|].
      split; [cbn [flat flat_map plain]; now rewrite app_nil_r|]. split; [repeat constructor | split; apply okrun_nil]. }
  exists (repeat EG k ++ E ++ repeat EG k'). split; [apply emitsT_app; [exact K|]; apply emitsT_app; [exact F1 | exact K']|].
  split; [rewrite !flat_app, !flat_gaps, F2; now rewrite app_nil_r|]. split; [rewrite !Forall_app; repeat split; auto using only_gaps|].
  assert (X : okruns false [] (E ++ repeat EG k')) by (apply okruns_join; auto; [destruct k'; exact I | apply okruns_gapsT, okrun_nil]).
  clear - X. induction k; [exact X|]. split; [apply okrun_nil | exact IHk].
Qed.

(** ** Address specifications *)
Lemma encode_digits p : Forall (fun r => digit_char r = true) p -> intro p = false.
Proof.
  induction 1 as [|r p Hr H IH]; [reflexivity|]. destruct p as [|r2 p]; [reflexivity|]. change (((r =? 61) && (r2 =? 63) || intro (r2 :: p))%N%bool = false). rewrite IH.
  destruct (N.eqb_spec r 61) as [->|_]; [discriminate Hr | reflexivity].
Qed.

Lemma drop_gaps_app E F : gaps E = false -> exists x E', drop_gaps (E ++ F) = x :: E' /\ In x E.
Proof.
  induction E as [|x E IH]; [discriminate|]. intros H. destruct x; try (eexists _, _; split; [reflexivity | now left]).
  destruct (IH H) as (y & E' & H1 & H2). exists y, E'. split; [exact H1 | now right].
Qed.

Lemma part_start E v F : partE E v -> plain_start (E ++ F).
Proof.
  intros (_ & L & G & _). unfold plain_start. destruct (drop_gaps_app E F G) as (x & E' & -> & HI). rewrite Forall_forall in L. specialize (L x HI). destruct x; auto.
  cbn [locE] in L. subst r. split; discriminate.
Qed.

Definition specE (rd : charset_reader) (E : list emit) (v : gostring) : Prop :=
  (forall k, spec_of rd (E ++ repeat EG k) = v) /\ (forall k, ungroup (E ++ repeat EG k) = E ++ repeat EG k) /\
  Forall (only [46%N; 64%N; 58%N]) E /\ In (ES 64%N) E /\ (forall F, plain_start (E ++ F)) /\ okruns false [] E.

Lemma spec_scanT rd enc x a : spec_m rd enc x a -> exists E, emitsT x E /\ specE rd E a.
Proof.
  intros [y l g d g' Hl Hg Hd Hg'|y l g d g' p Hl Hg Hd Hg' N Hp]; destruct (local_scanT rd enc y l Hl) as (L & EL' & PL); destruct (domain_scanT g d g' Hg Hd Hg') as (D & ED & D1 & D2 & D3);
  pose proof PL as (L1 & L2 & L3 & L4); assert (WL : without 64%N L) by (apply loc_noES; [exact L2 | discriminate]).
  - exists (L ++ ES 64%N :: D). split; [apply emitsT_app; [exact EL'|]; change (ES 64%N :: D) with ([ES 64%N] ++ D); apply emitsT_app; [apply special_emits; vm_compute; auto | exact ED]|].
    assert (O : Forall (only [46%N; 64%N; 58%N]) (L ++ ES 64%N :: D)).
    { rewrite Forall_app. split; [apply (only_mono [46%N]); [now apply loc_only | intros z [<-|[]]; now left]|]. constructor; [right; now left|]. apply (only_mono [46%N]); [exact D2 | intros z [<-|[]]; now left]. }
    split; [|split; [|split; [exact O|]]].
    + intros k. rewrite <- app_assoc. cbn [app]. unfold spec_of. rewrite cut_some by exact WL. rewrite (part_local rd L l PL), flat_app, flat_gaps, D1. now rewrite app_nil_r.
    + intros k. unfold ungroup. rewrite cut_none; [reflexivity|]. unfold without. rewrite !Forall_app. split; [split; [apply loc_noES; [exact L2 | discriminate]|]|].
      * constructor; [discriminate|]. apply (only_without [46%N]); [exact D2 | intros [X|[]]; discriminate X].
      * apply (only_without []); [apply only_gaps | intros []].
    + split; [apply in_app_iff; right; now left|]. split; [|now apply okruns_ES]. intros F. rewrite <- app_assoc. now apply (part_start L l).
  - exists ((L ++ ES 64%N :: D) ++ ES 58%N :: map EA p).
    split.
    { replace (y ++ bs "@" ++ g ++ d ++ g' ++ bs ":" ++ p) with ((y ++ [64%N] ++ (g ++ d ++ g')) ++ [58%N] ++ p) by (rewrite <- !app_assoc; reflexivity).
      apply emitsT_app; [apply emitsT_app; [exact EL'|]; change (ES 64%N :: D) with ([ES 64%N] ++ D); apply emitsT_app; [apply special_emits; vm_compute; auto | exact ED]|].
      change (ES 58%N :: map EA p) with ([ES 58%N] ++ map EA p). apply emitsT_app; [apply special_emits; vm_compute; auto|]. intros a0. apply runs_atoms.
      eapply Forall_impl; [|exact Hp]. intros r. apply digit_atext. }
    assert (O : Forall (only [46%N; 64%N; 58%N]) ((L ++ ES 64%N :: D) ++ ES 58%N :: map EA p)).
    { rewrite !Forall_app. split; [split; [apply (only_mono [46%N]); [now apply loc_only | intros z [<-|[]]; now left]|]|].
      - constructor; [right; now left|]. apply (only_mono [46%N]); [exact D2 | intros z [<-|[]]; now left].
      - constructor; [right; right; now left | apply only_atoms]. }
    assert (W58 : without 58%N (L ++ ES 64%N :: D)).
    { unfold without. rewrite !Forall_app. split; [apply loc_noES; [exact L2 | discriminate]|]. constructor; [discriminate|]. apply (only_without [46%N]); [exact D2 | intros [X|[]]; discriminate X]. }
    assert (W60 : without 60%N (L ++ ES 64%N :: D)).
    { unfold without. rewrite !Forall_app. split; [apply loc_noES; [exact L2 | discriminate]|]. constructor; [discriminate|]. apply (only_without [46%N]); [exact D2 | intros [X|[]]; discriminate X]. }
    split; [|split; [|split; [exact O|]]].
    + intros k. rewrite <- !app_assoc. cbn [app]. unfold spec_of. rewrite cut_some by exact WL. rewrite (part_local rd L l PL), !flat_app, flat_cons, flat_app, flat_gaps, D1, flat_atoms.
      rewrite app_nil_r, !encode_app. reflexivity.
    + intros k. unfold ungroup. rewrite <- (app_assoc (L ++ ES 64%N :: D)). cbn [app]. rewrite cut_some by exact W58. rewrite cut_none by exact W60. now rewrite port_like_digits.
    + split; [apply in_app_iff; left; apply in_app_iff; right; now left|]. split; [intros F; rewrite <- !app_assoc; now apply (part_start L l)|].
      apply okruns_ES; [now apply okruns_ES|]. apply okruns_run. left. now apply encode_digits.
Qed.

(** ** Angle addresses *)
Definition innerT (x : list rune) (E : list emit) : Prop := runs_to (MN true) x (MN true) E.

Lemma comma_emits : innerT [44%N] [ES 44%N].
Proof. apply (runs_step _ _ (MN true) [ES 44%N] [] (MN true) []); [reflexivity | apply runs_nil]. Qed.

Lemma route_end_scanT e : route_end e -> exists E, innerT e (E ++ [ES 58%N]) /\ Forall routeE E /\ (forall D, okruns false [] D -> okruns false [] (D ++ E)).
Proof.
  induction 1 as [|g e G H (E & EE & R & K)].
  - exists []. split; [apply special_emits; vm_compute; auto|]. split; [constructor|]. intros D KD. now rewrite app_nil_r.
  - destruct (gap_emits g G) as (k & K2 & _). exists (ES 44%N :: repeat EG k ++ E). split; [|split].
    + change (bs "," ++ g ++ e) with ([44%N] ++ g ++ e). replace ((ES 44%N :: repeat EG k ++ E) ++ [ES 58%N]) with ([ES 44%N] ++ repeat EG k ++ (E ++ [ES 58%N])) by (cbn [app]; now rewrite <- app_assoc).
      eapply runs_app; [exact comma_emits|]. eapply runs_app; [apply K2 | exact EE].
    + constructor; [right; right; now left|]. rewrite Forall_app. split; [apply only_gaps | exact R].
    + intros D KD. apply okruns_ES; [exact KD|]. apply K. apply okruns_gapsT, okrun_nil.
Qed.

Lemma route_scanT r : route_m r -> exists c E, innerT r (ES c :: E ++ [ES 58%N]) /\ (c = 64 \/ c = 44)%N /\ Forall routeE E /\ okruns false [] E.
Proof.
  induction 1 as [g d g' e Hg Hd Hg' He|g d g' g2 r Hg Hd Hg' Hg2 H (c & E & EE & C & R & K)|g r Hg H (c & E & EE & C & R & K)].
  - destruct (domain_scanT g d g' Hg Hd Hg') as (D & ED & D1 & D2 & D3). destruct (route_end_scanT e He) as (E & EE & R & K). exists 64%N, (D ++ E). split; [|split; [now left | split; [|now apply K]]].
    + replace (bs "@" ++ g ++ d ++ g' ++ e) with ([64%N] ++ (g ++ d ++ g') ++ e) by (now rewrite <- !app_assoc).
      replace (ES 64%N :: (D ++ E) ++ [ES 58%N]) with ([ES 64%N] ++ D ++ (E ++ [ES 58%N])) by (cbn [app]; now rewrite <- app_assoc).
      eapply runs_app; [apply special_emits; vm_compute; auto|]. eapply (runs_app (MN true)); [apply ED | exact EE].
    + rewrite Forall_app. split; [|exact R]. apply (only_mono [46%N]); [exact D2 | intros z [<-|[]]; now left].
  - destruct (domain_scanT g d g' Hg Hd Hg') as (D & ED & D1 & D2 & D3). destruct (gap_emits g2 Hg2) as (k & K2 & _). exists 64%N, (D ++ ES 44%N :: repeat EG k ++ ES c :: E).
    split; [|split; [now left | split]].
    + replace (bs "@" ++ g ++ d ++ g' ++ bs "," ++ g2 ++ r) with ([64%N] ++ (g ++ d ++ g') ++ [44%N] ++ g2 ++ r) by (now rewrite <- !app_assoc).
      replace (ES 64%N :: (D ++ ES 44%N :: repeat EG k ++ ES c :: E) ++ [ES 58%N]) with ([ES 64%N] ++ D ++ [ES 44%N] ++ repeat EG k ++ (ES c :: E ++ [ES 58%N])) by (cbn [app]; repeat (rewrite <- app_assoc; cbn [app]); reflexivity).
      eapply runs_app; [apply special_emits; vm_compute; auto|]. eapply (runs_app (MN true)); [apply ED|]. eapply runs_app; [exact comma_emits|].
      eapply runs_app; [apply K2 | exact EE].
    + rewrite Forall_app. split; [apply (only_mono [46%N]); [exact D2 | intros z [<-|[]]; now left]|]. constructor; [right; right; now left|]. rewrite Forall_app. split; [apply only_gaps|]. constructor; [|exact R]. destruct C as [->| ->]; [right; now left | right; right; now left].
    + apply okruns_ES; [exact D3|]. apply (okruns_ES false (repeat EG k)); [apply okruns_gapsT, okrun_nil | exact K].
  - destruct (gap_emits g Hg) as (k & K2 & _). exists 44%N, (repeat EG k ++ ES c :: E). split; [|split; [now right | split]].
    + change (bs "," ++ g ++ r) with ([44%N] ++ g ++ r). replace (ES 44%N :: (repeat EG k ++ ES c :: E) ++ [ES 58%N]) with ([ES 44%N] ++ repeat EG k ++ (ES c :: E ++ [ES 58%N])) by (cbn [app]; repeat (rewrite <- app_assoc; cbn [app]); reflexivity).
      eapply runs_app; [exact comma_emits|]. eapply runs_app; [apply K2 | exact EE].
    + rewrite Forall_app. split; [apply only_gaps|]. constructor; [|exact R]. destruct C as [->| ->]; [right; now left | right; right; now left].
    + apply (okruns_ES false (repeat EG k)); [apply okruns_gapsT, okrun_nil | exact K].
Qed.

Lemma led_scanT enc r : led_route enc r -> exists c E, innerT r (ES c :: E ++ [ES 58%N]) /\ (c = 64 \/ c = 44)%N /\ Forall routeE E /\ okruns false [] E.
Proof.
  induction 1 as [r H|g r Hg H (c & E & EE & C & R & K)]; [now apply route_scanT|].
  destruct (wgap_emits enc g Hg) as (k & K2 & _). exists 44%N, (repeat EG k ++ ES c :: E). split; [|split; [now right | split]].
  - change (bs "," ++ g ++ r) with ([44%N] ++ g ++ r). replace (ES 44%N :: (repeat EG k ++ ES c :: E) ++ [ES 58%N]) with ([ES 44%N] ++ repeat EG k ++ (ES c :: E ++ [ES 58%N])) by (cbn [app]; repeat (rewrite <- app_assoc; cbn [app]); reflexivity).
    eapply runs_app; [exact comma_emits|]. eapply runs_app; [apply K2 | exact EE].
  - rewrite Forall_app. split; [apply only_gaps|]. constructor; [|exact R]. destruct C as [->| ->]; [right; now left | right; right; now left].
  - apply (okruns_ES false (repeat EG k)); [apply okruns_gapsT, okrun_nil | exact K].
Qed.

Lemma angle_scanT rd enc x v : angle_m rd enc x v -> exists I, (forall a, runs_to (MN a) x (MN false) (ES 60%N :: I ++ [ES 62%N])) /\
  angle_of rd I = v /\ Forall (only [46%N; 64%N; 58%N; 44%N]) I /\ okruns false [] I.
Proof.
  assert (W : forall y I, innerT y I -> forall a, runs_to (MN a) (bs "<" ++ y ++ bs ">") (MN false) (ES 60%N :: I ++ [ES 62%N])).
  { intros y I H a. apply (runs_step _ _ (MN true) [ES 60%N] _ (MN false)); [reflexivity|]. eapply runs_app; [exact H|]. apply (runs_step _ _ (MN false) [ES 62%N] [] (MN false) []); [reflexivity | apply runs_nil]. }
  intros [y a H| |g r y a Hg Hr H].
  - destruct (spec_scanT rd enc y a H) as (E & EE & S1 & S2 & S3 & S4 & S5 & S6). exists E. split; [apply W, EE|]. split; [apply angle_of_spec; [specialize (S1 0); cbn [repeat] in S1; now rewrite app_nil_r in S1 | specialize (S5 []); now rewrite app_nil_r in S5]|].
    split; [|exact S6]. apply (only_mono [46%N; 64%N; 58%N]); [exact S3 | intros z; cbn [In]; tauto].
  - exists []. split; [apply (W []), runs_nil|]. split; [reflexivity|]. split; [constructor | apply okrun_nil].
  - destruct (spec_scanT rd enc y a H) as (E & EE & S1 & S2 & S3 & S4 & S5 & S6). destruct (led_scanT enc r Hr) as (c & R & ER & C & R1 & R2). destruct (wgap_emits enc g Hg) as (k & K & _).
    exists (repeat EG k ++ (ES c :: R ++ [ES 58%N]) ++ E). split; [|split; [|split]].
    + intros a0. replace (bs "<" ++ g ++ r ++ y ++ bs ">") with (bs "<" ++ (g ++ r ++ y) ++ bs ">") by (now rewrite <- !app_assoc). apply W. eapply runs_app; [apply K|]. eapply runs_app; [exact ER | apply EE].
    + unfold angle_of. rewrite drop_gaps_repeat. cbn [app drop_gaps]. replace ((c =? 64) || (c =? 44))%N%bool with true by (destruct C as [->| ->]; reflexivity). cbn iota.
      replace (repeat EG k ++ ES c :: (R ++ [ES 58%N]) ++ E) with ((repeat EG k ++ ES c :: R) ++ ES 58%N :: E) by (repeat (rewrite <- app_assoc; cbn [app]); reflexivity).
      rewrite cut_some; [specialize (S1 0); cbn [repeat] in S1; now rewrite app_nil_r in S1|]. unfold without. rewrite Forall_app. split; [apply (only_without []); [apply only_gaps | intros []]|].
      constructor; [destruct C as [->| ->]; discriminate|]. apply (only_without [46%N; 64%N; 44%N]); [exact R1 | cbn [In]; intuition discriminate].
    + rewrite !Forall_app. split; [apply only_gaps|]. split; [|apply (only_mono [46%N; 64%N; 58%N]); [exact S3 | intros z; cbn [In]; tauto]].
      constructor; [destruct C as [->| ->]; [right; now left | right; right; right; now left]|]. rewrite Forall_app. split; [apply (only_mono [46%N; 64%N; 44%N]); [exact R1 | intros z; cbn [In]; tauto]|]. constructor; [right; right; now left | constructor].
    + replace (repeat EG k ++ (ES c :: R ++ [ES 58%N]) ++ E) with (repeat EG k ++ ES c :: (R ++ ES 58%N :: E)) by (cbn [app]; repeat (rewrite <- app_assoc; cbn [app]); reflexivity).
      apply okruns_ES; [apply okruns_gapsT, okrun_nil | now apply okruns_ES].
Qed.

(** ** Mailboxes *)
Definition boxE (rd : charset_reader) (enc : bool) (E : list emit) (m : addr) : Prop :=
  (forall k, mailbox_of rd (E ++ repeat EG k) = m) /\ (forall k, ungroup (E ++ repeat EG k) = E ++ repeat EG k) /\
  (exists r, In (ES r) E) /\ noSep E /\ okruns enc [] E.

Lemma mailbox_scanT rd enc x m : mailbox_m rd enc x m -> exists E, runs_to (MN false) x (MN false) E /\ boxE rd enc E m.
Proof.
  assert (A : forall N g y a g' n z, emitsT z N -> Forall dispE N -> (forall k, name_of rd (N ++ repeat EG k) = n) -> okruns enc [] N -> wgap enc g -> angle_m rd enc y a -> ogap g' ->
    exists E, runs_to (MN false) (z ++ g ++ y ++ g') (MN false) E /\ boxE rd enc E (mkAddr n a)).
  { intros N g y a g' n z EN DN VN KN Hg Hy Hg'. destruct (wgap_emits enc g Hg) as (k & K & _), (gap_emits g' Hg') as (k' & K' & _). destruct (angle_scanT rd enc y a Hy) as (I & EI & VI & OI & KI).
    exists ((N ++ repeat EG k) ++ ES 60%N :: I ++ ES 62%N :: repeat EG k').
    assert (WN : forall c, c <> 46%N -> c <> 64%N -> without c (N ++ repeat EG k)).
    { intros c C1 C2. unfold without. rewrite Forall_app. split; [apply (only_without [46%N; 64%N]); [now apply disp_only | cbn [In]; intuition] | apply (only_without []); [apply only_gaps | intros []]]. }
    assert (WI : without 62%N I) by (apply (only_without [46%N; 64%N; 58%N; 44%N]); [exact OI | cbn [In]; intuition discriminate]).
    split; [|split; [|split; [|split; [|split]]]].
    - rewrite <- app_assoc. replace (ES 60%N :: I ++ ES 62%N :: repeat EG k') with ((ES 60%N :: I ++ [ES 62%N]) ++ repeat EG k') by (cbn [app]; now rewrite <- app_assoc).
      eapply runs_app; [apply EN|]. eapply runs_app; [apply K|]. eapply runs_app; [apply EI | apply K'].
    - intros j. rewrite <- app_assoc. cbn [app]. unfold mailbox_of. rewrite cut_some by (apply WN; discriminate). rewrite VN. f_equal. rewrite <- app_assoc. cbn [app]. rewrite cut_some by exact WI. exact VI.
    - intros j. unfold ungroup. set (L := ((N ++ repeat EG k) ++ ES 60%N :: I ++ ES 62%N :: repeat EG k') ++ repeat EG j).
      destruct (cut 58%N L) as [[p q]|] eqn:C; [|reflexivity]. assert (exists p', p = (N ++ repeat EG k) ++ ES 60%N :: p') as (p' & ->).
      { revert C. unfold L. rewrite <- app_assoc. cbn [app]. generalize (I ++ ES 62%N :: repeat EG k'). intros J. specialize (WN 58%N ltac:(discriminate) ltac:(discriminate)). clear - WN. revert p.
        induction WN as [|x M Hx HM IH]; intros p C.
        - cbn [app cut] in C. change (60 =? 58)%N with false in C. cbn iota in C. destruct (cut 58%N (J ++ repeat EG j)) as [[p1 q1]|]; [|discriminate C]. cbn [option_map] in C. injection C as <- <-. now exists p1.
        - cbn [app cut] in C. assert (C' : option_map (fun '(a, b) => (x :: a, b)) (cut 58%N (M ++ ES 60%N :: J ++ repeat EG j)) = Some (p, q)).
          { destruct x; try exact C. destruct (N.eqb_spec r 58) as [->|_]; [exfalso; now apply Hx | exact C]. }
          destruct (cut 58%N (M ++ ES 60%N :: J ++ repeat EG j)) as [[p1 q1]|]; [|discriminate C']. cbn [option_map] in C'. injection C' as <- <-. destruct (IH p1 eq_refl) as (p' & ->). now exists p'. }
      rewrite cut_some by (apply WN; discriminate). reflexivity.
    - exists 60%N. apply in_app_iff. right. now left.
    - unfold noSep. rewrite !Forall_app. split; [split; [apply (only_noSep [46%N; 64%N]); now apply disp_only | apply noSep_gaps]|]. constructor; [discriminate|]. rewrite Forall_app.
      split; [apply (only_noSep _ _ OI)|]. constructor; [discriminate | apply noSep_gaps].
    - apply okruns_ES; [apply okruns_join; [exact KN | destruct k; exact Logic.I | apply okruns_gapsT, okrun_nil]|]. apply okruns_ES; [now apply okruns_mono | apply okruns_gapsT, okrun_nil]. }
  intros [y a H|g y a g' Hg H Hg'|l g y a g' Hl Hg H Hg'].
  - destruct (spec_scanT rd enc y a H) as (E & EE & S1 & S2 & S3 & S4 & S5 & S6). exists E. split; [apply EE|]. split; [|split; [exact S2|]].
    + intros k. unfold mailbox_of. rewrite cut_none; [now rewrite S1|]. unfold without. rewrite Forall_app. split; [apply (only_without [46%N; 64%N; 58%N]); [exact S3 | cbn [In]; intuition discriminate]|]. apply (only_without []); [apply only_gaps | intros []].
    + split; [eauto|]. split; [apply (only_noSep _ _ S3) | now apply okruns_mono].
  - destruct (A [] g y a g' [] [] emitsT_nil (Forall_nil _)) as (E & RE & BE); auto; [|apply okrun_nil | now left | exists E; split; [exact RE | exact BE]].
    intros k. cbn [app]. clear. unfold name_of. destruct k; [reflexivity|]. rewrite <- (app_nil_r (repeat EG (S k))), names_app, nst_gaps. reflexivity.
  - destruct (name_scan rd enc l Hl) as (N & EN & DN & VN & KN). exact (A N g y a g' _ _ EN DN VN KN Hg H Hg').
Qed.
