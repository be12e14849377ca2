(** C09-C14, C19, C20, C25, C26: single addresses, each stated on its own; all follow from C15. *)
From Coq Require Import String List NArith ZArith Bool Arith Lia.
From Verif Require Import Lexer Utf8 Strs Mime GoTime Walker Api Utf8Facts DateSpec AddrSpec CharFacts PropApi
  ScanSpec AddrText TextLang TextScan PropText.
Import ListNotations.

Lemma one_mailbox_value e s enc m : mailbox_m (reader (wenv_of e)) enc (decode s) m -> ParseAddressList e s = Ret (Some [m]) None.
Proof. intros H. apply (C15_mailbox_list e s enc). now constructor. Qed.

Lemma plain_mailbox e s m : mailbox_m (reader (wenv_of e)) true (decode s) m -> ParseAddressList e s = Ret (Some [m]) None.
Proof. intros H. exact (one_mailbox_value e s true m H). Qed.

(** a dot-atom in which "=?" does not occur *)
Definition plain_dots (l : list rune) : Prop := dot_atom l /\ no_intro l.

Lemma nogap : ogap [].
Proof. now left. Qed.
#[local] Hint Resolve nogap ogap_wgap gap_long long_wgap : core.

Lemma plain_local rd enc l : plain_dots l -> local_m rd enc l (encode l).
Proof. intros [H N]. rewrite <- (app_nil_r l) at 1. apply (lm_dot rd enc [] l []); auto. Qed.

Lemma plain_domain d : plain_dots d -> domain_m d.
Proof. intros [H N]. now constructor. Qed.

Lemma plain_spec rd enc l d : plain_dots l -> plain_dots d -> spec_m rd enc (l ++ bs "@" ++ d) (encode l ++ bs "@" ++ encode d).
Proof.
  intros Hl Hd. pose proof (sm_plain rd enc l (encode l) [] d [] (plain_local rd enc l Hl) nogap (plain_domain d Hd) nogap) as H. cbn [app] in H. now rewrite app_nil_r in H.
Qed.

Lemma plain_angle rd enc l d : plain_dots l -> plain_dots d -> angle_m rd enc (bs "<" ++ l ++ bs "@" ++ d ++ bs ">") (encode l ++ bs "@" ++ encode d).
Proof.
  intros Hl Hd. replace (bs "<" ++ l ++ bs "@" ++ d ++ bs ">") with (bs "<" ++ (l ++ bs "@" ++ d) ++ bs ">") by (now rewrite <- !app_assoc). constructor. now apply plain_spec.
Qed.

(** C09: gaps (comments and folding white space) around the parts of an address do not matter. *)
Theorem C09_gaps_ignored : forall e s l d g1 g2 g3 g4, plain_dots l -> plain_dots d -> ogap g1 -> ogap g2 -> ogap g3 -> ogap g4 ->
  (decode s = g1 ++ l ++ g2 ++ bs "@" ++ g3 ++ d ++ g4 \/
   exists g0 g5, ogap g0 /\ ogap g5 /\ decode s = g0 ++ bs "<" ++ g1 ++ l ++ g2 ++ bs "@" ++ g3 ++ d ++ g4 ++ bs ">" ++ g5) ->
  ParseAddressList e s = Ret (Some [mkAddr [] (encode l ++ bs "@" ++ encode d)]) None.
Proof.
  intros e s l d g1 g2 g3 g4 [Hl Nl] Hd H1 H2 H3 H4 H. apply plain_mailbox.
  assert (S : spec_m (reader (wenv_of e)) true (g1 ++ l ++ g2 ++ bs "@" ++ g3 ++ d ++ g4) (encode l ++ bs "@" ++ encode d)).
  { replace (g1 ++ l ++ g2 ++ bs "@" ++ g3 ++ d ++ g4) with ((g1 ++ l ++ g2) ++ bs "@" ++ g3 ++ d ++ g4) by (now rewrite <- !app_assoc). constructor; auto; [now constructor | now apply plain_domain]. }
  destruct H as [->|(g0 & g5 & H0 & H5 & ->)]; [now constructor|].
  replace (g0 ++ bs "<" ++ g1 ++ l ++ g2 ++ bs "@" ++ g3 ++ d ++ g4 ++ bs ">" ++ g5)
    with (g0 ++ (bs "<" ++ (g1 ++ l ++ g2 ++ bs "@" ++ g3 ++ d ++ g4) ++ bs ">") ++ g5) by (now rewrite <- !app_assoc).
  apply mm_angle; auto. now apply am_spec.
Qed.

Example C09_met : let c := bs " (a (b) \) c) " in ogap c /\ ogap ([13; 10; 32]%N) /\ plain_dots (bs "x.y.") /\
  ParseAddressList env0 (c ++ bs "x.y.@z" ++ [13; 10; 32]%N) = Ret (Some [mkAddr [] (bs "x.y.@z")]) None.
Proof.
  cbv zeta. assert (G : ogap (bs " (a (b) \) c) ")).
  { right. right. apply (cs_one (bs " ") (bs "(a (b) \) c)") (bs " ")); [right; constructor; [discriminate | repeat constructor] | | right; constructor; [discriminate | repeat constructor]].
    exists (bs "a (b) \) c"). split; [reflexivity|]. apply (cb_char [] 97%N (bs " (b) \) c")); [now left | reflexivity|].
    apply (cb_nested (bs " ") (bs "b") (bs " \) c")); [right; constructor; [discriminate | repeat constructor] | apply (cb_char [] 98%N []); [now left | reflexivity | constructor; now left]|].
    apply (cb_pair (bs " ") 41%N (bs " c")); [right; constructor; [discriminate | repeat constructor] | reflexivity|].
    apply (cb_char (bs " ") 99%N []); [right; constructor; [discriminate | repeat constructor] | reflexivity | constructor; now left]. }
  assert (P : plain_dots (bs "x.y.")).
  { split; [|apply intro_no_spec; reflexivity]. exists [bs "x"; bs "y"]. split; [discriminate|]. split; [|right; reflexivity]. repeat constructor; discriminate. }
  assert (F : ogap [13; 10; 32]%N) by (right; left; apply (fold_line [] [32%N]); [constructor | discriminate | repeat constructor]).
  split; [exact G|]. split; [exact F|]. split; [exact P|].
  apply (C09_gaps_ignored env0 _ (bs "x.y.") (bs "z") (bs " (a (b) \) c) ") [] [] [13; 10; 32]%N); auto.
  - split; [|apply intro_no_spec; reflexivity]. exists [bs "z"]. split; [discriminate|]. split; [|left; reflexivity]. repeat constructor; discriminate.
Qed.

(** C10: an unquoted display name is its words joined by single spaces.  The gaps in the name may be
    long: blank lines are allowed. *)
Theorem C10_words_joined : forall e s g0 a0 (rest : list (list rune * list rune)) g l d g', plain_dots l -> plain_dots d ->
  ogap g0 -> atom a0 -> no_intro a0 -> Forall (fun ga => long_gap (fst ga) /\ fst ga <> [] /\ atom (snd ga) /\ no_intro (snd ga)) rest -> long_gap g -> ogap g' ->
  decode s = g0 ++ a0 ++ flat_map (fun ga => fst ga ++ snd ga) rest ++ g ++ bs "<" ++ l ++ bs "@" ++ d ++ bs ">" ++ g' ->
  ParseAddressList e s = Ret (Some [mkAddr (encode (join (bs " ") (a0 :: map snd rest))) (encode l ++ bs "@" ++ encode d)]) None.
Proof.
  intros e s g0 a0 rest g l d g' Hl Hd H0 HA NA HR Hg Hg' D. apply (one_mailbox_value e s false). set (n := (g0, IAtom a0) :: map (fun ga => (fst ga, IAtom (snd ga))) rest).
  assert (T : decode s = name_text n ++ g ++ (bs "<" ++ l ++ bs "@" ++ d ++ bs ">") ++ g').
  { rewrite D. subst n. change (name_text ((g0, IAtom a0) :: ?x)) with ((g0 ++ a0) ++ name_text x).
    replace (name_text (map (fun ga => (fst ga, IAtom (snd ga))) rest)) with (flat_map (fun ga : list rune * list rune => fst ga ++ snd ga) rest); [now rewrite <- !app_assoc|].
    clear. induction rest as [|[g a] rest IH]; [reflexivity|]. cbn [flat_map map fst snd]. change (name_text ((g, IAtom a) :: ?x)) with ((g ++ a) ++ name_text x). now rewrite IH. }
  assert (V : name_value (reader (wenv_of e)) n = encode (join (bs " ") (a0 :: map snd rest))).
  { unfold n, name_value. cbn [name_from joins item_value]. cbn [app]. clear -HA.
    assert (G : forall m (p : list rune), p <> [] -> name_from (reader (wenv_of e)) (encode p) (Some (IAtom m)) (map (fun ga : list rune * list rune => (fst ga, IAtom (snd ga))) rest) = encode (p ++ flat_map (fun ga : list rune * list rune => bs " " ++ snd ga) rest)).
    { induction rest as [|[g a] rest IH]; intros m p N; [cbn; now rewrite app_nil_r|]. cbn [map name_from joins item_value fst snd flat_map].
      assert (encode p <> []) as NE. { destruct p as [|r p]; [congruence|]. destruct (encode1_cons r) as (b & t & E). unfold encode. cbn [flat_map]. rewrite E. discriminate. }
      destruct (encode p) eqn:EP; [congruence|]. rewrite <- EP. etransitivity; [|etransitivity; [exact (IH a (p ++ bs " " ++ a) ltac:(destruct p; discriminate))|]].
      - f_equal. rewrite !encode_app. reflexivity.
      - f_equal. now rewrite <- !app_assoc. }
    rewrite G by (now destruct HA). f_equal. clear. revert a0. induction rest as [|[g a] rest IH]; intros a0; [cbn; now rewrite app_nil_r|]. cbn [map snd flat_map]. cbn [join]. cbn [join] in IH. rewrite <- IH. now rewrite <- !app_assoc. }
  rewrite T. change (mkAddr (encode (join (bs " ") (a0 :: map snd rest))) (encode l ++ bs "@" ++ encode d)) with (address_of (encode (join (bs " ") (a0 :: map snd rest))) (encode l ++ bs "@" ++ encode d)). rewrite <- V.
  apply mm_named; auto; [|now apply plain_angle]. split; [now split|]. split; [left; exact H0|]. split; [now split|]. split; [discriminate|]. cbn [is_run].
  clear - HR. induction HR as [|[g a] rest (Hg & Ng & Ha & Na) HR IH]; [exact I|]. cbn [map items_ok fst snd] in *. split; [now apply long_wgap|]. split; [now split|]. split; [auto | exact IH].
Qed.

(** ** Display names in general *)

Lemma named_value e s enc n g x a g' : name_ok enc n -> wgap enc g -> angle_m (reader (wenv_of e)) enc x a -> ogap g' ->
  decode s = name_text n ++ g ++ x ++ g' -> ParseAddressList e s = Ret (Some [mkAddr (name_value (reader (wenv_of e)) n) a]) None.
Proof. intros Hn Hg Hx Hg' D. apply (one_mailbox_value e s enc). rewrite D. apply mm_named; auto. Qed.

Lemma quoted_value e s q t g0 g x a g' : quoted q t -> ogap g0 -> long_gap g -> angle_m (reader (wenv_of e)) false x a -> ogap g' ->
  decode s = g0 ++ q ++ g ++ x ++ g' -> ParseAddressList e s = Ret (Some [mkAddr (encode t) a]) None.
Proof.
  intros Hq H0 Hg Hx Hg' D. refine (named_value e s false [(g0, IQuoted q t)] g x a g' _ (long_wgap g Hg) Hx Hg' _).
  - split; [now split|]. split; [left; exact H0|]. split; [exact Hq|]. split; [discriminate | exact I].
  - rewrite D. unfold name_text. cbn [flat_map item_text]. now rewrite app_nil_r, <- !app_assoc.
Qed.

(** the characters of a name: printable ASCII, space, tab and everything from U+0080 to U+FFFF *)
Definition name_char (r : rune) : bool := (in_range 32 126 r || (r =? 9) || in_range 128 65535 r)%N.

(** backslash before the characters in [c] *)
Definition escape (c : list rune) (t : list rune) : list rune := flat_map (fun r => if existsb (N.eqb r) c then [92%N; r] else [r]) t.

Definition special_or_blank : list rune := [34; 92; 32; 9]%N.
Definition special_only : list rune := [34; 92]%N.

Lemma no_fold : optional fold [].
Proof. now left. Qed.
#[local] Hint Resolve no_fold : core.

Lemma existsb_bound c r k : existsb (N.eqb r) c = true -> Forall (fun x => (x <= k)%N) c -> (r <= k)%N.
Proof. intros H F. apply existsb_exists in H as (x & Hx & E). apply N.eqb_eq in E. subst. rewrite Forall_forall in F. now apply F. Qed.

(** an escaped character *)
Lemma escape_step r b t : name_char r = true -> quoted_body b t -> quoted_body (escape special_or_blank [r] ++ b) (r :: t).
Proof.
  intros Hr Hb. unfold escape, special_or_blank. cbn [flat_map]. rewrite app_nil_r. unfold name_char, in_range in Hr.
  destruct (existsb (N.eqb r) [34; 92; 32; 9]%N) eqn:E.
  - assert (V : vanishes r = false) by (cbn in E; unfold vanishes; repeat (apply orb_prop in E as [E|E]); try discriminate E; apply N.eqb_eq in E; subst; reflexivity).
    pose proof (qb_pair [] r b t no_fold) as P. rewrite V in P. apply P; [|exact Hb]. cbn in E. repeat (apply orb_prop in E as [E|E]); try discriminate E; apply N.eqb_eq in E; subst; reflexivity.
  - apply (qb_char [] r b t no_fold); [|exact Hb]. unfold quoted_char, in_range. cbn in E |- *. repeat rewrite orb_false_iff in E. destruct E as (E1 & E2 & E3 & E4 & _).
    rewrite E1, E2. apply N.eqb_neq in E1, E2, E3, E4. cbn [orb negb]. rewrite andb_true_r. rewrite E4 in Hr || (apply orb_prop in Hr as [Hr|Hr]; [apply orb_prop in Hr as [Hr|Hr]|]).
    + apply andb_prop in Hr as [A B]. apply N.leb_le in A, B. apply orb_true_iff. left. apply orb_true_iff. left. apply andb_true_iff. split; apply N.leb_le; lia.
    + apply N.eqb_eq in Hr. congruence.
    + rewrite Hr. now rewrite orb_true_r.
Qed.

Lemma escape_all t : Forall (fun r => name_char r = true) t -> forall b u, quoted_body b u -> quoted_body (escape special_or_blank t ++ b) (t ++ u).
Proof.
  induction 1 as [|r t Hr H IH]; intros b u Hb; [exact Hb|]. change (escape special_or_blank (r :: t)) with (escape special_or_blank ([r] ++ t)).
  unfold escape at 1. rewrite flat_map_app. rewrite <- app_assoc. apply (escape_step r _ (t ++ u) Hr). now apply IH.
Qed.

(** C11: quoting a name (backslash before quotes, backslashes and blanks) and parsing gives the name back. *)
Theorem C11_quoted_name_round_trip : forall e s t l d g0 g g', Forall (fun r => name_char r = true) t -> plain_dots l -> plain_dots d -> ogap g0 -> long_gap g -> ogap g' ->
  decode s = g0 ++ ([34%N] ++ escape special_or_blank t ++ [34%N]) ++ g ++ (bs "<" ++ l ++ bs "@" ++ d ++ bs ">") ++ g' ->
  ParseAddressList e s = Ret (Some [mkAddr (encode t) (encode l ++ bs "@" ++ encode d)]) None.
Proof.
  intros e s t l d g0 g g' Ht Hl Hd H0 Hg Hg' D. refine (quoted_value e s _ t g0 g _ _ g' _ H0 Hg (plain_angle _ _ l d Hl Hd) Hg' D).
  exists (escape special_or_blank t). split; [reflexivity|]. pose proof (escape_all t Ht [] [] (qb_end [] no_fold)) as E. now rewrite !app_nil_r in E.
Qed.

Lemma blanks_fold p : blanks p -> optional fold p.
Proof. intros H. destruct p; [now left|]. right. constructor; [discriminate | exact H]. Qed.

Lemma escape_cons c r t : escape c (r :: t) = (if existsb (N.eqb r) c then [92%N; r] else [r]) ++ escape c t.
Proof. reflexivity. Qed.

Lemma plain_step p r b t : blanks p -> name_char r = true -> blank_char r = false -> quoted_body b t ->
  quoted_body (p ++ (if existsb (N.eqb r) special_only then [92%N; r] else [r]) ++ b) (p ++ r :: t).
Proof.
  intros Hp Hr Nr Hb. apply blanks_fold in Hp. unfold special_only. destruct (existsb (N.eqb r) [34; 92]%N) eqn:E.
  - assert (V : vanishes r = false /\ pair_char r = true) by (cbn in E; repeat (apply orb_prop in E as [E|E]); try discriminate E; apply N.eqb_eq in E; subst; split; reflexivity).
    pose proof (qb_pair p r b t Hp (proj2 V) Hb) as P. rewrite (proj1 V) in P. exact P.
  - apply (qb_char p r b t Hp); [|exact Hb]. unfold quoted_char. rewrite E. cbn [negb]. rewrite andb_true_r. unfold name_char, blank_char, in_range in *. rewrite orb_false_iff in Nr. destruct Nr as [N1 N2]. rewrite N2 in Hr. apply N.eqb_neq in N1.
    rewrite orb_false_r in Hr. apply orb_prop in Hr as [Hr|Hr].
    + apply andb_prop in Hr as [A B]. apply N.leb_le in A, B. apply orb_true_iff. left. apply orb_true_iff. left. apply andb_true_iff. split; apply N.leb_le; lia.
    + rewrite Hr. now rewrite orb_true_r.
Qed.

Lemma plain_quoted w : blanks w -> forall t p, Forall (fun r => name_char r = true) t -> blanks p -> t <> [] -> blank_char (last t 0%N) = false ->
  quoted_body (p ++ escape special_only t ++ w) (p ++ t).
Proof.
  intros Hw. induction t as [|r t IH]; intros p Ht Hp N L; [congruence|]. inversion_clear Ht as [|? ? Hr Ht']. rewrite escape_cons, <- app_assoc.
  destruct t as [|r' t].
  - cbn in L. apply plain_step; auto. apply qb_end. now apply blanks_fold.
  - assert (L' : blank_char (last (r' :: t) 0%N) = false) by exact L. destruct (blank_char r) eqn:B.
    + replace (if existsb (N.eqb r) special_only then [92%N; r] else [r]) with [r].
      2:{ unfold blank_char in B. apply orb_prop in B as [B|B]; apply N.eqb_eq in B; subst; reflexivity. }
      specialize (IH (p ++ [r]) Ht'). rewrite <- !app_assoc in IH. apply IH; [apply Forall_app; split; [exact Hp | now constructor] | discriminate | exact L'].
    + apply plain_step; auto. apply (IH [] Ht' ltac:(constructor)); [discriminate | exact L'].
Qed.

(** C12: with plain blanks the white space at the end of the quoted name, and no other, is lost. *)
Theorem C12_blanks_at_the_end_are_dropped : forall e s t w l d g0 g g', Forall (fun r => name_char r = true) t -> (t = [] \/ blank_char (last t 0%N) = false) -> blanks w ->
  plain_dots l -> plain_dots d -> ogap g0 -> long_gap g -> ogap g' ->
  decode s = g0 ++ ([34%N] ++ escape special_only (t ++ w) ++ [34%N]) ++ g ++ (bs "<" ++ l ++ bs "@" ++ d ++ bs ">") ++ g' ->
  ParseAddressList e s = Ret (Some [mkAddr (encode t) (encode l ++ bs "@" ++ encode d)]) None.
Proof.
  intros e s t w l d g0 g g' Ht L Hw Hl Hd H0 Hg Hg' D. refine (quoted_value e s _ t g0 g _ _ g' _ H0 Hg (plain_angle _ _ l d Hl Hd) Hg' D).
  exists (escape special_only (t ++ w)). split; [reflexivity|]. unfold escape at 1. rewrite flat_map_app. fold (escape special_only t).
  replace (flat_map _ w) with w.
  2:{ clear -Hw. induction Hw as [|r w Hr Hw IH]; [reflexivity|]. cbn [flat_map]. rewrite <- IH. unfold blank_char in Hr. apply orb_prop in Hr as [B|B]; apply N.eqb_eq in B; subst; reflexivity. }
  destruct t as [|r t]; [apply qb_end; now apply blanks_fold|]. destruct L as [|L]; [discriminate|]. apply (plain_quoted w Hw (r :: t) [] Ht ltac:(constructor)); [discriminate | exact L].
Qed.

(** in particular formatting a name that ends in a space and parsing it loses the space *)
Theorem C12_round_trip_fails : ~ forall e t, Forall (fun r => name_char r = true) t ->
  ParseAddressList e (encode ([34%N] ++ escape special_only t ++ bs """ <a@b>")) = Ret (Some [mkAddr (encode t) (bs "a@b")]) None.
Proof.
  intros H. specialize (H env0 (bs "x ") ltac:(repeat constructor)).
  rewrite (C12_blanks_at_the_end_are_dropped env0 _ (bs "x") (bs " ") (bs "a") (bs "b") [] (bs " ") []) in H; auto.
  - discriminate H.
  - repeat constructor.
  - repeat constructor.
  - split; [exists [bs "a"]; split; [discriminate | split; [repeat constructor; discriminate | left; reflexivity]] | apply intro_no_spec; reflexivity].
  - split; [exists [bs "b"]; split; [discriminate | split; [repeat constructor; discriminate | left; reflexivity]] | apply intro_no_spec; reflexivity].
  - apply gap_long. right. left. apply fold_plain; [discriminate | repeat constructor].
Qed.

(** C13: a backslash and a control character inside quotes contribute nothing. *)
Theorem C13_escaped_controls_vanish : forall e s (p : list (list rune * rune)) t l d g0 g g',
  Forall (fun tc => Forall (fun r => name_char r = true) (fst tc) /\ vanishes (snd tc) = true) p -> Forall (fun r => name_char r = true) t ->
  plain_dots l -> plain_dots d -> ogap g0 -> long_gap g -> ogap g' ->
  decode s = g0 ++ ([34%N] ++ (flat_map (fun tc : list rune * rune => escape special_or_blank (fst tc) ++ [92%N; snd tc]) p ++ escape special_or_blank t) ++ [34%N]) ++ g ++ (bs "<" ++ l ++ bs "@" ++ d ++ bs ">") ++ g' ->
  ParseAddressList e s = Ret (Some [mkAddr (encode (concat (map fst p) ++ t)) (encode l ++ bs "@" ++ encode d)]) None.
Proof.
  intros e s p t l d g0 g g' Hp Ht Hl Hd H0 Hg Hg' D. refine (quoted_value e s _ (concat (map fst p) ++ t) g0 g _ _ g' _ H0 Hg (plain_angle _ _ l d Hl Hd) Hg' D).
  eexists. split; [reflexivity|]. clear D. induction Hp as [|[u c] p [Hu Hc] Hp IH].
  - cbn [flat_map map concat app]. pose proof (escape_all t Ht [] [] (qb_end [] no_fold)) as E. now rewrite !app_nil_r in E.
  - cbn [flat_map map concat fst snd] in *. rewrite <- !app_assoc. apply escape_all; [exact Hu|]. change ([92%N; c] ++ ?b) with ([] ++ [92%N; c] ++ b).
    assert (PC : pair_char c = true).
    { unfold pair_char. unfold vanishes in Hc. apply N.leb_le. apply orb_prop in Hc as [Hc|Hc]; [apply andb_prop in Hc as [Hc _]; apply N.leb_le in Hc; lia | apply N.eqb_eq in Hc; lia]. }
    pose proof (qb_pair [] c _ _ no_fold PC IH) as P. rewrite Hc in P. exact P.
Qed.

(** C14: periods and at-signs in an unquoted name are not surrounded by spaces. *)
Record link : Type := mkLink { gap_before : list rune; sign : rune; gap_after : list rune; next : list rune }.

Definition link_ok (k : link) : Prop := long_gap (gap_before k) /\ (sign k = 46%N \/ sign k = 64%N) /\ long_gap (gap_after k) /\ atom (next k) /\ no_intro (next k).

Theorem C14_signs_join : forall e s g0 a0 (rest : list link) l d g g', ogap g0 -> atom a0 -> no_intro a0 -> Forall link_ok rest -> plain_dots l -> plain_dots d -> long_gap g -> ogap g' ->
  decode s = g0 ++ a0 ++ flat_map (fun k => gap_before k ++ [sign k] ++ gap_after k ++ next k) rest ++ g ++ (bs "<" ++ l ++ bs "@" ++ d ++ bs ">") ++ g' ->
  ParseAddressList e s = Ret (Some [mkAddr (encode (a0 ++ flat_map (fun k => [sign k] ++ next k) rest)) (encode l ++ bs "@" ++ encode d)]) None.
Proof.
  intros e s g0 a0 rest l d g g' H0 HA NA HR Hl Hd Hg Hg' D. set (items := flat_map (fun k => [(gap_before k, IMark (sign k)); (gap_after k, IAtom (next k))]) rest).
  assert (T : name_text items = flat_map (fun k => gap_before k ++ [sign k] ++ gap_after k ++ next k) rest).
  { subst items. clear. induction rest as [|k rest IH]; [reflexivity|]. cbn [flat_map]. rewrite <- IH. unfold name_text. rewrite flat_map_app. cbn [flat_map item_text]. rewrite app_nil_r. now rewrite <- !app_assoc. }
  assert (V : forall m (p : list rune), name_from (reader (wenv_of e)) (encode p) (Some (IAtom m)) items = encode (p ++ flat_map (fun k => [sign k] ++ next k) rest)).
  { subst items. clear. induction rest as [|k rest IH]; intros m p; [cbn; now rewrite app_nil_r|]. cbn [flat_map app name_from joins item_value].
    etransitivity; [|etransitivity; [exact (IH (next k) (p ++ [sign k] ++ next k))|]].
    - f_equal. rewrite !encode_app. unfold encode at 4. cbn [flat_map]. now rewrite app_nil_r, <- !app_assoc.
    - f_equal. rewrite <- !app_assoc. reflexivity. }
  assert (O : items_ok false true items).
  { subst items. clear - HR. induction HR as [|k rest (H1 & H2 & H3 & H4 & H5) HR IH]; [exact I|]. cbn [flat_map app items_ok is_run]. split; [now apply long_wgap|]. split; [exact H2|]. split; [discriminate|].
    split; [now apply long_wgap|]. split; [now split|]. split; [discriminate | exact IH]. }
  pose proof (named_value e s false ((g0, IAtom a0) :: items) g (bs "<" ++ l ++ bs "@" ++ d ++ bs ">") (encode l ++ bs "@" ++ encode d) g') as P.
  assert (E : name_value (reader (wenv_of e)) ((g0, IAtom a0) :: items) = encode (a0 ++ flat_map (fun k => [sign k] ++ next k) rest)) by (etransitivity; [|exact (V a0 a0)]; reflexivity).
  rewrite E in P. apply P; auto.
  - split; [now split|]. split; [left; exact H0|]. split; [now split|]. split; [discriminate | exact O].
  - apply plain_angle; auto.
  - rewrite D. change (name_text ((g0, IAtom a0) :: items)) with ((g0 ++ a0) ++ name_text items). rewrite T. now rewrite <- !app_assoc.
Qed.

(** C18: a group without members.  [y]: nothing, or gaps separated by commas. *)
Theorem C18_empty_group : forall e s enc n g ys t g', name_ok enc n -> wgap enc g -> ys <> [] -> Forall ogap ys -> (t = [] /\ g' = [] \/ t = bs ";" /\ ogap g') ->
  decode s = name_text n ++ g ++ bs ":" ++ join (bs ",") ys ++ t ++ g' -> paired (decode s) ->
  exists sl, ParseAddressList e s = Ret sl None /\ elems sl = [].
Proof.
  intros e s enc n g ys t g' Hn Hg N Hy Ht D Q. apply (C17_groups_and_mailboxes e s enc); [|exact Q]. rewrite D. apply as_one. right.
  apply (gm _ _ n g false (join (bs ",") ys) [] t g'); auto.
  - clear - N Hy. induction Hy as [|y ys H Hy IH]; [congruence|]. destruct ys as [|y' ys]; [now apply sp_none|]. change (join (bs ",") (y :: y' :: ys)) with (y ++ bs "," ++ join (bs ",") (y' :: ys)). apply sp_skip; [exact H | apply IH; discriminate].
  - destruct Ht as [[-> ->]|[-> H]]; auto.
  - destruct Ht as [[-> ->]|[-> H]]; auto.
  - destruct Ht as [[-> ->]|[-> H]]; [auto | discriminate].
Qed.

(** C19: a source route has no influence. *)
Theorem C19_route_ignored : forall e s enc n g g1 r l d g', (n = [] /\ ogap g \/ name_ok enc n /\ wgap enc g) -> wgap enc g1 -> led_route enc r -> plain_dots l -> plain_dots d -> ogap g' ->
  decode s = name_text n ++ g ++ (bs "<" ++ g1 ++ r ++ (l ++ bs "@" ++ d) ++ bs ">") ++ g' ->
  ParseAddressList e s = Ret (Some [mkAddr (name_value (reader (wenv_of e)) n) (encode l ++ bs "@" ++ encode d)]) None.
Proof.
  intros e s enc n g g1 r l d g' Hn H1 Hr Hl Hd Hg' D.
  assert (A : angle_m (reader (wenv_of e)) enc (bs "<" ++ g1 ++ r ++ (l ++ bs "@" ++ d) ++ bs ">") (encode l ++ bs "@" ++ encode d)) by (apply am_route; auto; now apply plain_spec).
  destruct Hn as [[-> Hg]|[Hn Hg]]; [|exact (named_value e s enc n g _ _ g' Hn Hg A Hg' D)]. apply (one_mailbox_value e s enc). rewrite D. change (name_text []) with (@nil rune). change (name_value (reader (wenv_of e)) []) with (@nil byte). exact (mm_angle _ _ g _ _ g' Hg A Hg').
Qed.

(** C20: empty angle brackets give an empty Address. *)
Theorem C20_null_address : forall e s enc n g g', (n = [] /\ ogap g \/ name_ok enc n /\ wgap enc g) -> ogap g' ->
  decode s = name_text n ++ g ++ bs "<>" ++ g' ->
  ParseAddressList e s = Ret (Some [mkAddr (name_value (reader (wenv_of e)) n) []]) None.
Proof.
  intros e s enc n g g' Hn Hg' D. pose proof (am_null (reader (wenv_of e)) enc) as A. change (bs "<" ++ bs ">") with (bs "<>") in A.
  destruct Hn as [[-> Hg]|[Hn Hg]]; [|exact (named_value e s enc n g _ _ g' Hn Hg A Hg' D)]. apply (one_mailbox_value e s enc). rewrite D. change (name_text []) with (@nil rune). change (name_value (reader (wenv_of e)) []) with (@nil byte). exact (mm_angle _ _ g _ _ g' Hg A Hg').
Qed.

(** C25: the domain is returned as written: a dot-atom, possibly with a trailing period, or a bracketed
    literal, and possibly a port. *)
Theorem C25_domain_verbatim : forall e s l D p, plain_dots l -> domain_m D ->
  (p = [] \/ exists q, p = bs ":" ++ q /\ q <> [] /\ Forall (fun r => digit_char r = true) q) ->
  (decode s = l ++ bs "@" ++ D ++ p \/ decode s = bs "<" ++ l ++ bs "@" ++ D ++ p ++ bs ">") ->
  ParseAddressList e s = Ret (Some [mkAddr [] (encode (l ++ bs "@" ++ D ++ p))]) None.
Proof.
  intros e s l D p Hl HD Hp H. apply plain_mailbox.
  assert (S : spec_m (reader (wenv_of e)) true (l ++ bs "@" ++ D ++ p) (encode (l ++ bs "@" ++ D ++ p))).
  { rewrite encode_app, (encode_app (bs "@")). change (encode (bs "@")) with (bs "@"). destruct Hp as [->|(q & -> & Nq & Hq)].
    - rewrite app_nil_r. rewrite <- (app_nil_r D) at 1. apply (sm_plain _ _ l (encode l) [] D []); auto. now apply plain_local.
    - apply (sm_port _ _ l (encode l) [] D [] q); auto. now apply plain_local. }
  destruct H as [->| ->]; [now apply mm_spec|]. replace (bs "<" ++ l ++ bs "@" ++ D ++ p ++ bs ">") with ([] ++ (bs "<" ++ (l ++ bs "@" ++ D ++ p) ++ bs ">") ++ []) by (rewrite app_nil_r; cbn [app]; now rewrite <- !app_assoc).
  apply mm_angle; auto. now apply am_spec.
Qed.

(** C26: a quoted local part is returned without its quotes and escapes. *)
Theorem C26_quoted_local_part : forall e s q t d g g', quoted q t -> plain_dots d -> ogap g -> ogap g' ->
  (decode s = g ++ q ++ g' ++ bs "@" ++ d \/ decode s = bs "<" ++ g ++ q ++ g' ++ bs "@" ++ d ++ bs ">") ->
  ParseAddressList e s = Ret (Some [mkAddr [] (encode t ++ bs "@" ++ encode d)]) None.
Proof.
  intros e s q t d g g' Hq Hd Hg Hg' H. apply plain_mailbox.
  assert (S : spec_m (reader (wenv_of e)) true (g ++ q ++ g' ++ bs "@" ++ d) (encode t ++ bs "@" ++ encode d)).
  { replace (g ++ q ++ g' ++ bs "@" ++ d) with ((g ++ q ++ g') ++ bs "@" ++ [] ++ d ++ []) by (rewrite app_nil_r; now rewrite <- !app_assoc). apply sm_plain; auto; [|now apply plain_domain].
    apply lm_words. apply (wm_one _ _ g (IQuoted q t) g'); auto. right. eauto. }
  destruct H as [->| ->]; [now apply mm_spec|]. replace (bs "<" ++ g ++ q ++ g' ++ bs "@" ++ d ++ bs ">") with ([] ++ (bs "<" ++ (g ++ q ++ g' ++ bs "@" ++ d) ++ bs ">") ++ []) by (rewrite app_nil_r; cbn [app]; now rewrite <- !app_assoc).
  apply mm_angle; auto. now apply am_spec.
Qed.

(** * Non-vacuity: each theorem applied to one text *)

Lemma one_atom a : negb (eqb_str a []) && forallb atext_char a && negb (intro a) = true -> atom a /\ no_intro a.
Proof.
  intros H. apply andb_prop in H as [H I0]. apply andb_prop in H as [N F]. apply negb_true_iff in I0. split; [split|now apply intro_no_spec].
  - intros ->. discriminate N.
  - apply Forall_forall. intros r Hr. rewrite forallb_forall in F. now apply F.
Qed.

Lemma one_dots a : negb (eqb_str a []) && forallb atext_char a && negb (intro a) = true -> plain_dots a.
Proof. intros H. apply one_atom in H as [H N]. split; [|exact N]. exists [a]. split; [discriminate|]. split; [repeat constructor; apply H | left; reflexivity]. Qed.

Lemma space_gap : ogap (bs " ").
Proof. right. left. apply fold_plain; [discriminate | repeat constructor]. Qed.

Lemma comment_gap : ogap (bs "(x)").
Proof. right. right. apply (cs_one [] (bs "(x)") []); auto. exists (bs "x"). split; [reflexivity|]. apply (cb_char [] 120%N []); auto. now constructor. Qed.
#[local] Hint Resolve space_gap comment_gap : core.

Ltac name_met := split; [split; [reflexivity | auto]|]; cbn [items_ok item_ok is_run];
  repeat (split; [first [solve [auto] | apply one_atom; reflexivity | intros; discriminate]|]); exact I.

Example C10_met : ParseAddressList env0 (bs "John Q.(x)Doe <a@b>") = Ret (Some [mkAddr (bs "John Q.Doe") (bs "a@b")]) None.
Proof.
  apply (named_value env0 _ false [([], IAtom (bs "John")); (bs " ", IAtom (bs "Q")); ([], IMark 46%N); (bs "(x)", IAtom (bs "Doe"))] (bs " ") (bs "<a@b>") (bs "a@b") []); auto.
  - name_met.
  - apply (plain_angle _ _ (bs "a") (bs "b")); apply one_dots; reflexivity.
Qed.

Example C10_words_met : ParseAddressList env0 (bs "John(x)Doe <a@b>") = Ret (Some [mkAddr (bs "John Doe") (bs "a@b")]) None.
Proof.
  apply (C10_words_joined env0 _ [] (bs "John") [(bs "(x)", bs "Doe")] (bs " ") (bs "a") (bs "b") []); auto; try (apply one_dots; reflexivity); try (apply one_atom; reflexivity).
  constructor; [|constructor]. cbn [fst snd]. split; [auto|]. split; [discriminate | apply one_atom; reflexivity].
Qed.

(** a blank line between the words *)
Example C10_blank_line_met : let g := [13; 10; 32]%N in ParseAddressList env0 (bs "John" ++ (g ++ g) ++ bs "Doe" ++ (g ++ g) ++ bs "<a@b>") = Ret (Some [mkAddr (bs "John Doe") (bs "a@b")]) None.
Proof.
  assert (G : long_gap ([13; 10; 32] ++ [13; 10; 32])%N).
  { assert (F : ogap [13; 10; 32]%N) by (right; left; apply (fold_line [] [32%N]); [constructor | discriminate | repeat constructor]). apply lg_more; auto. }
  apply (C10_words_joined env0 _ [] (bs "John") [([13; 10; 32] ++ [13; 10; 32], bs "Doe")%N] ([13; 10; 32] ++ [13; 10; 32])%N (bs "a") (bs "b") []); auto; try (apply one_dots; reflexivity); try (apply one_atom; reflexivity).
  constructor; [|constructor]. cbn [fst snd]. split; [exact G|]. split; [discriminate | apply one_atom; reflexivity].
Qed.

Example C11_met : ParseAddressList env0 (bs """\""a\ "" <a@b>") = Ret (Some [mkAddr (bs """a ") (bs "a@b")]) None.
Proof. apply (C11_quoted_name_round_trip env0 _ (bs """a ") (bs "a") (bs "b") [] (bs " ") []); auto; try (apply one_dots; reflexivity). repeat constructor. Qed.

Example C12_met : ParseAddressList env0 (bs """a b  "" <a@b>") = Ret (Some [mkAddr (bs "a b") (bs "a@b")]) None.
Proof. apply (C12_blanks_at_the_end_are_dropped env0 _ (bs "a b") (bs "  ") (bs "a") (bs "b") [] (bs " ") []); auto; try (apply one_dots; reflexivity); repeat constructor. Qed.

Example C13_met : ParseAddressList env0 ([34; 97; 92; 0; 98; 34]%N ++ bs " <a@b>") = Ret (Some [mkAddr (bs "ab") (bs "a@b")]) None.
Proof. apply (C13_escaped_controls_vanish env0 _ [(bs "a", 0%N)] (bs "b") (bs "a") (bs "b") [] (bs " ") []); auto; try (apply one_dots; reflexivity); repeat constructor. Qed.

Example C14_met : ParseAddressList env0 (bs "a . b@c <a@b>") = Ret (Some [mkAddr (bs "a.b@c") (bs "a@b")]) None.
Proof.
  apply (C14_signs_join env0 _ [] (bs "a") [mkLink (bs " ") 46%N (bs " ") (bs "b"); mkLink [] 64%N [] (bs "c")] (bs "a") (bs "b") (bs " ") []); auto; try (apply one_dots; reflexivity); try (apply one_atom; reflexivity).
  constructor; [|constructor; [|constructor]]; (split; [cbn; auto|]; split; [cbn; auto|]; split; [cbn; auto|]; apply one_atom; reflexivity).
Qed.

Example C18_met : exists sl, ParseAddressList env0 (bs """n o"" one: , (x);(x)") = Ret sl None /\ elems sl = [].
Proof.
  apply (C18_empty_group env0 _ true [([], IQuoted (bs """n o""") (bs "n o")); (bs " ", IAtom (bs "one"))] [] [bs " "; bs " (x)"] (bs ";") (bs "(x)")); auto.
  - apply name_true. split; [reflexivity|]. split; [auto|]. split; [|split; [discriminate|]; split; [auto|]; split; [apply one_atom; reflexivity | split; [discriminate | exact I]]].
    exists (bs "n o"). split; [reflexivity|]. apply (qb_char [] 110%N (bs " o") (bs " o")); [now left | reflexivity|]. apply (qb_char (bs " ") 111%N [] []); [right; apply fold_plain; [discriminate | repeat constructor] | reflexivity|]. apply qb_end. now left.
  - discriminate.
  - constructor; [auto | constructor; [|constructor]]. right. right. apply (cs_one (bs " ") (bs "(x)") []); auto; [right; apply fold_plain; [discriminate | repeat constructor]|]. exists (bs "x"). split; [reflexivity|]. apply (cb_char [] 120%N []); auto. now constructor.
  - right. right. left. reflexivity.
Qed.

Example C19_met : ParseAddressList env0 (bs "<@x,@y:a@b>") = Ret (Some [mkAddr [] (bs "a@b")]) None.
Proof.
  apply (C19_route_ignored env0 _ true [] [] [] (bs "@x,@y:") (bs "a") (bs "b") []); auto; try (apply one_dots; reflexivity).
  apply le_route, (ro_more [] (bs "x") [] [] (bs "@y:")); auto; [apply plain_domain, one_dots; reflexivity|]. apply (ro_last [] (bs "y") [] (bs ":")); auto using re_colon. apply plain_domain, one_dots; reflexivity.
Qed.

Example C20_met : ParseAddressList env0 (bs "John <>") = Ret (Some [mkAddr (bs "John") []]) None.
Proof. apply (C20_null_address env0 _ true [([], IAtom (bs "John"))] (bs " ") []); auto. right. split; [name_met | auto]. Qed.

Example C25_met : ParseAddressList env0 (bs "a@[::1]:25") = Ret (Some [mkAddr [] (bs "a@[::1]:25")]) None.
Proof.
  apply (C25_domain_verbatim env0 _ (bs "a") (bs "[::1]") (bs ":25")); try (apply one_dots; reflexivity); [| |now left].
  - apply (dm_literal (bs "::1")). apply (lb_char [] 58%N (bs ":1")); auto. apply (lb_char [] 58%N (bs "1")); auto. apply (lb_char [] 49%N []); auto. now constructor.
  - right. exists (bs "25"). repeat split; [discriminate | repeat constructor].
Qed.

Example C26_met : ParseAddressList env0 (bs """a\""b ""@c") = Ret (Some [mkAddr [] (bs "a""b@c")]) None.
Proof.
  apply (C26_quoted_local_part env0 _ (bs """a\""b """) (bs "a""b") (bs "c") [] []); auto; try (apply one_dots; reflexivity).
  exists (bs "a\""b "). split; [reflexivity|]. apply (qb_char [] 97%N (bs "\""b ") (bs """b")); auto. apply (qb_pair [] 34%N (bs "b ") (bs "b")); auto. apply (qb_char [] 98%N (bs " ") []); auto.
  apply qb_end. right. apply fold_plain; [discriminate | repeat constructor].
Qed.

(** so distinct inputs may return the same Address, and the Address need not be acceptable itself *)
Theorem C26_address_need_not_be_accepted : exists s a, ParseAddressList env0 s = Ret (Some [mkAddr [] a]) None /\ forall sl, ParseAddressList env0 a <> Ret sl None.
Proof.
  exists (bs """a b""@c"), (bs "a b@c"). split; [vm_compute; reflexivity|]. intros sl H. assert (E : match ParseAddressList env0 (bs "a b@c") with Ret _ (Some _) => true | _ => false end = true) by (vm_compute; reflexivity). rewrite H in E. discriminate E.
Qed.

(** lists *)
Lemma tiny rd a d : negb (eqb_str a []) && forallb atext_char a && negb (intro a) = true -> negb (eqb_str d []) && forallb atext_char d && negb (intro d) = true ->
  mailbox_m rd false (a ++ bs "@" ++ d) (mkAddr [] (encode a ++ bs "@" ++ encode d)).
Proof. intros A D. apply mm_spec, plain_spec; now apply one_dots. Qed.

Lemma tiny_spaced rd a d : negb (eqb_str a []) && forallb atext_char a && negb (intro a) = true -> negb (eqb_str d []) && forallb atext_char d && negb (intro d) = true ->
  mailbox_m rd false (bs " " ++ a ++ bs "@" ++ d) (mkAddr [] (encode a ++ bs "@" ++ encode d)).
Proof.
  intros A D. apply one_dots in A, D. apply mm_spec. replace (bs " " ++ a ++ bs "@" ++ d) with ((bs " " ++ a ++ []) ++ bs "@" ++ [] ++ d ++ []) by (rewrite !app_nil_r; now rewrite <- !app_assoc).
  apply sm_plain; auto; [destruct A; now apply lm_dot | now apply plain_domain].
Qed.

Example C15_met : ParseAddressList env0 (bs """x, y"" <a@b>;c@d, e@f") = Ret (Some [mkAddr (bs "x, y") (bs "a@b"); mkAddr [] (bs "c@d"); mkAddr [] (bs "e@f")]) None.
Proof.
  apply (C15_mailbox_list env0 _ false).
  apply (ms_more _ _ (bs """x, y"" <a@b>") (mkAddr (bs "x, y") (bs "a@b")) 59%N (bs "c@d, e@f")); [|now right|].
  - apply (mm_named _ _ [([], IQuoted (bs """x, y""") (bs "x, y"))] (bs " ") (bs "<a@b>") (bs "a@b") []); auto; [|apply (plain_angle _ _ (bs "a") (bs "b")); apply one_dots; reflexivity].
    split; [split; [reflexivity | auto]|]. split; [auto|]. split; [|split; [discriminate | exact I]]. exists (bs "x, y"). split; [reflexivity|]. apply (plain_quoted [] ltac:(constructor) (bs "x, y") [] ltac:(repeat constructor) ltac:(constructor)); [discriminate | reflexivity].
  - apply (ms_more _ _ (bs "c@d") (mkAddr [] (bs "c@d")) 44%N (bs " e@f")); [apply (tiny _ (bs "c") (bs "d")); reflexivity | now left | apply ms_one, (tiny_spaced _ (bs "e") (bs "f")); reflexivity].
Qed.

Example C16_met : exists sl, ParseAddressList env0 (bs ", ,a@b,,c@d,") = Ret sl None /\ elems sl = [mkAddr [] (bs "a@b"); mkAddr [] (bs "c@d")].
Proof.
  apply (C16_empty_entries env0 _ false); [|left; cbn; intuition discriminate].
  apply (sp_skip _ [] true (bs " ,a@b,,c@d,")); auto. apply (sp_skip _ (bs " ") true (bs "a@b,,c@d,")); auto. apply (sp_more _ (bs "a@b") [mkAddr [] (bs "a@b")] true (bs ",c@d,") [mkAddr [] (bs "c@d")]).
  - left. eexists. split; [apply (tiny _ (bs "a") (bs "b")); reflexivity | reflexivity].
  - apply (sp_skip _ [] true (bs "c@d,")); auto. apply (sp_more _ (bs "c@d") [mkAddr [] (bs "c@d")] false [] []); [|now apply sp_none].
    left. eexists. split; [apply (tiny _ (bs "c") (bs "d")); reflexivity | reflexivity].
Qed.

Example C17_met : exists sl, ParseAddressList env0 (bs "my group:a@b,c@d;, e@f") = Ret sl None /\ elems sl = [mkAddr [] (bs "a@b"); mkAddr [] (bs "c@d"); mkAddr [] (bs "e@f")].
Proof.
  apply (C17_groups_and_mailboxes env0 _ false); [|left; cbn; intuition discriminate].
  apply (as_more _ _ (bs "my group:a@b,c@d;") [mkAddr [] (bs "a@b"); mkAddr [] (bs "c@d")] 44%N (bs " e@f") [mkAddr [] (bs "e@f")]); [|now left|].
  - right. apply (gm _ _ [([], IAtom (bs "my")); (bs " ", IAtom (bs "group"))] [] true (bs "a@b,c@d") [mkAddr [] (bs "a@b"); mkAddr [] (bs "c@d")] (bs ";") []); auto; [name_met|].
    apply (sp_more _ (bs "a@b") [mkAddr [] (bs "a@b")] true (bs "c@d") [mkAddr [] (bs "c@d")]); [|apply sp_one]; eexists; (split; [|reflexivity]); [apply (tiny _ (bs "a") (bs "b")) | apply (tiny _ (bs "c") (bs "d"))]; reflexivity.
  - apply as_one. left. eexists. split; [|reflexivity]. apply (tiny_spaced _ (bs "e") (bs "f")); reflexivity.
Qed.

(** Without the condition on double quotes C17 is false: here the group is named by a quoted string and an
    atom and has one member, but the parser takes the two quotes for unpaired ones and the text for two groups. *)
Theorem C17_fails_with_colons_in_quotes : exists s l, addresses_m (reader (wenv_of env0)) false (decode s) l /\
  exists sl, ParseAddressList env0 s = Ret sl None /\ length (elems sl) = 2 /\ length l = 1.
Proof.
  exists (bs """a: b@c,""d: e@f"), [mkAddr [] (bs "e@f")]. split.
  - apply as_one. right. apply (gm _ _ [([], IQuoted (bs """a: b@c,""") (bs "a: b@c,")); ([], IAtom (bs "d"))] [] true (bs " e@f") [mkAddr [] (bs "e@f")] [] []); auto.
    + split; [split; [reflexivity | auto]|]. split; [auto|]. split; [|split; [discriminate|]; split; [auto|]; split; [apply one_atom; reflexivity | split; [discriminate | exact I]]].
      exists (bs "a: b@c,"). split; [reflexivity|]. apply (plain_quoted [] ltac:(constructor) (bs "a: b@c,") [] ltac:(repeat constructor) ltac:(constructor)); [discriminate | reflexivity].
    + apply sp_one. eexists. split; [apply (tiny_spaced _ (bs "e") (bs "f")); reflexivity | reflexivity].
  - eexists. split; [vm_compute; reflexivity|]. split; reflexivity.
Qed.

Example C17_met_quotes : exists sl, ParseAddressList env0 (bs "g: ""E: F"" <g@h>;") = Ret sl None /\ elems sl = [mkAddr (bs "E: F") (bs "g@h")].
Proof.
  apply (C17_groups_and_mailboxes env0 _ false); [|right; right; right; reflexivity].
  apply as_one. right. apply (gm _ _ [([], IAtom (bs "g"))] [] true (bs " ""E: F"" <g@h>") [mkAddr (bs "E: F") (bs "g@h")] (bs ";") []); auto; [name_met|].
  apply sp_one. eexists. split; [|reflexivity].
  apply (mm_named _ _ [(bs " ", IQuoted (bs """E: F""") (bs "E: F"))] (bs " ") (bs "<g@h>") (bs "g@h") []); auto; [|apply (plain_angle _ _ (bs "g") (bs "h")); apply one_dots; reflexivity].
  split; [split; [reflexivity | auto]|]. split; [auto|]. split; [|split; [discriminate | exact I]]. exists (bs "E: F"). split; [reflexivity|]. apply (plain_quoted [] ltac:(constructor) (bs "E: F") [] ltac:(repeat constructor) ltac:(constructor)); [discriminate | reflexivity].
Qed.
