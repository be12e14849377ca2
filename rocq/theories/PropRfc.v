(** C66, C67, C68: the package against RFC 5322 and RFC 6532. *)
From Coq Require Import String List NArith ZArith Bool Arith Lia.
From Verif Require Import Lexer Grammar Utf8 Strs Mime GoTime Parser Walker Api Spec ParserFacts
  WalkerFacts Static Total Cfws LangFacts LexFacts Utf8Facts First DateSpec AddrSpec Chosen AddrSem CharFacts PropApi PropInv PropDate
  ScanSpec AddrText MboxList TextLang EncText PropText PropStable PropSize AcceptText AcceptFacts PropAccept Rfc5322 RfcFacts RfcMeaning RfcRead RfcSyntax RfcBack.
Import ListNotations.
Local Open Scope text_scope.

(** the forms of the standard that are not accepted *)
Definition address_limits : list form := [O_FWS; O_domain; O_dtext; U_high_characters].
Definition date_limits : list form := [O_FWS; U_high_characters; Long_year; O_long_obs_year; O_military].

Lemma limits_address (on : form -> Prop) : (forall f, on f -> ~ In f address_limits) -> within (address_list on) address_list_texts.
Proof. intros H. apply address_list_in; intros A; apply (H _ A); cbn; tauto. Qed.

Lemma limits_date (on : form -> Prop) : (forall f, on f -> ~ In f date_limits) -> within (rfc_date_time on) date_texts.
Proof. intros H. apply date_time_in; intros A; apply (H _ A); cbn; tauto. Qed.

Lemma address_same : same (address_list (but anything address_limits)) address_list_texts.
Proof. apply same_within; [apply limits_address; intros f [_ H]; exact H | apply address_list_back]. intros f H. split; [exact I|]. cbn in *. tauto. Qed.

(** forms that dates do not use *)
Lemma date_same : same (rfc_date_time (but anything date_limits)) date_texts.
Proof. apply same_within; [apply limits_date; intros f [_ H]; exact H | apply date_time_back]. intros f H. split; [exact I|]. cbn in *. tauto. Qed.

Lemma bmps_kept s : bmps (decode s) -> kept s = decode s.
Proof. unfold kept. generalize (decode s). intros x B. induction B as [|r x R B IH]; [reflexivity|]. cbn [filter]. now rewrite R, IH. Qed.

Lemma bmps_lexes e s : bmps (decode s) -> lexes e s.
Proof. intros B _. revert B. apply Forall_impl. intros r R. now apply N.leb_le. Qed.

(** C66: exactly the address lists of RFC 5322 and RFC 6532, obsolete forms included, without the four
    forms of [address_limits] and with the extensions of Rfc5322.v are accepted.  [kept] and [lexes] are
    as in C56: characters from U+10000 are dropped, or make the input be rejected. *)
Theorem C66_address_list_syntax : forall e s, s <> [] ->
  ((exists l, ParseAddressList e s = Ret l None) <-> address_list (but anything address_limits) (kept s) /\ lexes e s).
Proof. intros e s Hs. rewrite (C56_accepted_address_lists e s Hs). pose proof (address_same (kept s)) as E. tauto. Qed.

(** An address list of the standard is accepted, unless it uses one of the four forms. *)
Theorem C66_standard_address_lists_accepted : forall e s,
  address_list (but standard address_limits) (decode s) -> exists l, ParseAddressList e s = Ret l None.
Proof.
  intros e s H. destruct s as [|c s]; [exists (Some []); apply C03_empty_input|].
  assert (T : address_list_texts (decode (c :: s))) by (revert H; apply limits_address; intros f [_ L]; exact L).
  pose proof (proj2 (before_addressList _) T) as [B _].
  apply C56_accepted_address_lists; [discriminate|]. rewrite (bmps_kept _ B). split; [exact T | now apply bmps_lexes].
Qed.

(** C67: the same for date-times. *)
Theorem C67_date_time_syntax : forall e s, s <> [] ->
  ((exists t, ParseDateTime e s = Ret t None) <-> rfc_date_time (but anything date_limits) (kept s) /\ lexes e s).
Proof. intros e s Hs. rewrite (C57_accepted_dates e s Hs). pose proof (date_same (kept s)) as E. tauto. Qed.

Theorem C67_standard_dates_accepted : forall e s,
  rfc_date_time (but standard date_limits) (decode s) -> exists t, ParseDateTime e s = Ret t None.
Proof.
  intros e s H. destruct s as [|c s]; [exists zero_time; apply C03_empty_input|].
  assert (T : date_texts (decode (c :: s))) by (revert H; apply limits_date; intros f [_ L]; exact L).
  pose proof (proj2 (before_dateTime _) T) as [B _].
  apply C57_accepted_dates; [discriminate|]. rewrite (bmps_kept _ B). split; [exact T | now apply bmps_lexes].
Qed.

(** ** Each limit is one: a text of section 3 and that form only which is rejected *)
Ltac none := exists []; eexists; split; [reflexivity|]; split; [now left|].
Ltac eaten x := exists x; eexists; split; [reflexivity|]; split.

Lemma rejected_everywhere s : s <> [] -> (exists l er, ParseAddressList env0 s = Ret l (Some er)) -> forall e, ~ exists l, ParseAddressList e s = Ret l None.
Proof.
  intros Hs (l & er & E) e A. apply C56_accepted_address_lists in A as [T _]; [|exact Hs].
  destruct (proj2 (C56_accepted_address_lists env0 s Hs) (conj T (env0_lexes s))) as [l' E']. rewrite E in E'. discriminate E'.
Qed.

Lemma date_rejected_everywhere s : s <> [] -> (exists t er, ParseDateTime env0 s = Ret t (Some er)) -> forall e, ~ exists t, ParseDateTime e s = Ret t None.
Proof.
  intros Hs (l & er & E) e A. apply C57_accepted_dates in A as [T _]; [|exact Hs].
  destruct (proj2 (C57_accepted_dates env0 s Hs) (conj T (env0_lexes s))) as [l' E']. rewrite E in E'. discriminate E'.
Qed.

Lemma cat_n (P Q : texts) u : P [] -> Q u -> (P ;; Q) u.
Proof. intros A B. exists [], u. auto. Qed.

Section texts_.
  Variable on : form -> Prop.

  Lemma letter r : in_range 97%N 122%N r = true -> some (atext on) [r].
  Proof. intros H. apply (some_i (atext on) [r] []); [left; right; exists r; auto | constructor]. Qed.

  Lemma letter_dot r : in_range 97%N 122%N r = true -> rfc_dot_atom on [r].
  Proof. intros H. apply cat_n; [now left|]. apply cat_nil_r; [|now left]. apply cat_nil_r; [now apply letter|]. apply cat_nil_r; [constructor | now left]. Qed.

  Lemma spec_list x y : local_part on x -> domain on y -> address_list on (x ++ bs "@" ++ y).
  Proof.
    intros X Y. left. apply cat_nil_r; [|constructor]. left. right. apply cat_i; [exact X|]. apply cat_lit. apply cat_nil_r; [exact Y | now left].
  Qed.

  Lemma digit_text r : in_range 48%N 57%N r = true -> DIGIT [r].
  Proof. intros H. exists r. auto. Qed.

  Lemma space : FWS on (bs " ").
  Proof. left. apply cat_n; [now left|]. apply cat_nil_r; [now left | constructor]. Qed.

  (** "1 Jan" and "02:03" *)
  Lemma date_list y z g : rfc_year on y -> rfc_zone on z -> optional (CFWS on) g -> rfc_date_time on (bs "1 Jan" ++ y ++ bs "02:03" ++ z ++ g).
  Proof.
    intros Y Z G. apply cat_n; [now left|].
    assert (D1 : DIGIT (bs "1")) by now apply digit_text. assert (D0 : DIGIT (bs "0")) by now apply digit_text. assert (D2 : DIGIT (bs "2")) by now apply digit_text. assert (D3 : DIGIT (bs "3")) by now apply digit_text.
    assert (E : (bs "1 Jan" ++ y) ++ (bs "02:03" ++ z) ++ g = bs "1 Jan" ++ y ++ bs "02:03" ++ z ++ g) by (now rewrite <- !app_assoc).
    refine (eq_ind _ (fun w => ((rfc_day on ;; rfc_month ;; rfc_year on) ;; (time_of_day on ;; rfc_zone on) ;; optional (CFWS on)) w) _ _ E). apply cat_i; [|apply cat_i; [apply cat_i; [|exact Z] | exact G]].
    - apply (cat_i (rfc_day on) (rfc_month ;; rfc_year on) (bs "1 ") (bs "Jan" ++ y)); [|apply cat_i; [now left | exact Y]]. left. apply cat_n; [now left|]. apply (cat_i _ _ (bs "1") (bs " ")); [|exact space]. apply cat_nil_r; [exact D1 | now left].
    - apply (cat_i _ _ (bs "02") (bs ":03")); [left; apply (cat_i _ _ (bs "0") (bs "2")); auto|]. apply (cat_lit _ ":" (bs "03")). apply cat_nil_r; [left; apply (cat_i _ _ (bs "0") (bs "3")); auto | now left].
  Qed.

  Lemma four_digits a b c d : DIGIT [a] -> DIGIT [b] -> DIGIT [c] -> DIGIT [d] -> four DIGIT [a; b; c; d].
  Proof. intros A B C D. apply (cat_i _ _ [a] [b; c; d] A). apply (cat_i _ _ [b] [c; d] B). now apply (cat_i _ _ [c] [d]). Qed.

  Lemma year_1997 : rfc_year on (bs " 1997 ").
  Proof. left. apply (cat_i _ _ (bs " ") (bs "1997 ") space). apply (cat_i _ _ (bs "1997") (bs " ")); [|exact space]. apply four_digits; now apply digit_text. Qed.

  Lemma zone_0000 : rfc_zone on (bs " +0000").
  Proof. left. apply (cat_i _ _ (bs " ") (bs "+0000") space). apply (cat_i _ _ (bs "+") (bs "0000")); [now left|]. apply four_digits; now apply digit_text. Qed.
End texts_.

Definition crlf : gostring := [13; 10]%N.
(** the character U+1F600 *)
Definition high_char : gostring := encode [128512%N].

Definition only (f : form) : form -> Prop := eq f.

Lemma two_folds : CFWS (only O_FWS) (bs " " ++ crlf ++ bs " " ++ crlf ++ bs " ").
Proof.
  assert (W : some WSP (bs " ")) by (apply cat_nil_r; [now left | constructor]).
  right. right. split; [reflexivity|]. apply cat_i; [exact W|]. assert (K : (CRLF ;; some WSP) (crlf ++ bs " ")) by (apply cat_i; [reflexivity | exact W]).
  apply (many_more _ (crlf ++ bs " ") (crlf ++ bs " ")); [exact K|]. apply (many_more _ (crlf ++ bs " ") []); [exact K | constructor].
Qed.

Theorem C66_limits : forall f, In f address_limits -> standard f /\ exists s,
  address_list (only f) (decode s) /\ forall e, ~ exists l, ParseAddressList e s = Ret l None.
Proof.
  intros f F. split; [intros X; cbn in *; intuition congruence|]. cbn in F. destruct F as [<-|[<-|[<-|[<-|[]]]]].
  - exists (bs "a@b" ++ bs " " ++ crlf ++ bs " " ++ crlf ++ bs " "). split.
    + apply (spec_list _ (bs "a") (bs "b" ++ bs " " ++ crlf ++ bs " " ++ crlf ++ bs " ")); [left; now apply letter_dot|]. left. apply cat_n; [now left|]. apply cat_i; [|right; exact two_folds].
      apply cat_nil_r; [now apply letter|]. apply cat_nil_r; [constructor | now left].
    + apply rejected_everywhere; [discriminate|]. eexists _, _. vm_compute. reflexivity.
  - exists (bs "a@b . c"). split.
    + apply (spec_list _ (bs "a") (bs "b . c")); [left; now apply letter_dot|]. right. right. split; [reflexivity|]. assert (S : optional (CFWS (only O_domain)) (bs " ")) by (right; right; apply space).
      apply (cat_i _ _ (bs "b ") (bs ". c")); [apply cat_n; [now left|]; apply (cat_i _ _ (bs "b") (bs " ")); [now apply letter | exact S]|].
      apply (many_more _ (bs ". c") []); [|constructor]. apply (cat_lit _ "." (bs " c")). apply (cat_i _ _ (bs " ") (bs "c") S). apply cat_nil_r; [now apply letter | now left].
    + apply rejected_everywhere; [discriminate|]. eexists _, _. vm_compute. reflexivity.
  - exists (bs "a@[\c]"). split.
    + apply (spec_list _ (bs "a") (bs "[\c]")); [left; now apply letter_dot|]. right. left. apply cat_n; [now left|]. apply (cat_lit _ "[" (bs "\c]")).
      apply (cat_i _ _ (bs "\c") (bs "]")); [|apply cat_n; [now left|]; apply cat_nil_r; [reflexivity | now left]]. apply (many_more _ (bs "\c") []); [|constructor]. apply cat_n; [now left|].
      right. right. right. split; [reflexivity|]. right. left. apply (cat_lit _ "\" (bs "c")). left. left. exists 99%N. auto.
    + apply rejected_everywhere; [discriminate|]. eexists _, _. vm_compute. reflexivity.
  - exists (high_char ++ bs "@b"). split.
    + change (decode (high_char ++ bs "@b")) with ([128512%N] ++ bs "@" ++ bs "b"). apply spec_list; [|left; now apply letter_dot]. left. apply cat_n; [now left|]. apply cat_nil_r; [|now left].
      apply cat_nil_r; [|apply cat_nil_r; [constructor | now left]]. apply (some_i (atext (only U_high_characters)) [128512%N] []); [|constructor]. right. right. right. right. split; [reflexivity|]. exists 128512%N. auto.
    + apply rejected_everywhere; [discriminate|]. eexists _, _. vm_compute. reflexivity.
Qed.

Theorem C67_limits : forall f, In f date_limits -> standard f /\ exists s,
  rfc_date_time (only f) (decode s) /\ forall e, ~ exists t, ParseDateTime e s = Ret t None.
Proof.
  intros f F. split; [intros X; cbn in *; intuition congruence|]. cbn in F. destruct F as [<-|[<-|[<-|[<-|[<-|[]]]]]].
  - exists (bs "1 Jan 1997 02:03 +0000 " ++ crlf ++ bs " " ++ crlf ++ bs " "). split.
    + apply (date_list _ (bs " 1997 ") (bs " +0000") (bs " " ++ crlf ++ bs " " ++ crlf ++ bs " ")); [apply year_1997 | apply zone_0000 | right; exact two_folds].
    + apply date_rejected_everywhere; [discriminate|]. eexists _, _. vm_compute. reflexivity.
  - exists (bs "1 Jan 1997 02:03 +0000(\" ++ high_char ++ bs ")"). split.
    + change (decode (bs "1 Jan 1997 02:03 +0000(\" ++ high_char ++ bs ")")) with (bs "1 Jan" ++ bs " 1997 " ++ bs "02:03" ++ bs " +0000" ++ (bs "(" ++ ([] ++ (bs "\" ++ [128512%N]) ++ []) ++ [] ++ bs ")")).
      apply date_list; [apply year_1997 | apply zone_0000 |]. right. left. apply cat_nil_r; [|now left]. apply cat_nil_r; [|constructor]. apply cat_n; [now left|]. apply c_comment; [|now left].
      apply c_more; [now left | | constructor]. apply c_pair. left. apply cat_lit. left. right. right. split; [reflexivity|]. exists 128512%N. auto.
    + apply date_rejected_everywhere; [discriminate|]. eexists _, _. vm_compute. reflexivity.
  - exists (bs "1 Jan 10000 02:03 +0000"). split.
    + apply (date_list _ (bs " 10000 ") (bs " +0000") []); [| apply zone_0000 | now left]. right. left. split; [reflexivity|]. apply (cat_i _ _ (bs " ") (bs "10000 ") (space _)).
      apply (cat_i _ _ (bs "1000") (bs "0 ")); [apply four_digits; now apply digit_text|]. apply (cat_i _ _ (bs "0") (bs " ")); [|apply space]. apply cat_nil_r; [now apply digit_text | constructor].
    + apply date_rejected_everywhere; [discriminate|]. eexists _, _. vm_compute. reflexivity.
  - exists (bs "1 Jan 097 02:03 +0000"). split.
    + apply (date_list _ (bs " 097 ") (bs " +0000") []); [| apply zone_0000 | now left]. right. right. right. split; [reflexivity|]. assert (S : optional (CFWS (only O_long_obs_year)) (bs " ")) by (right; right; apply space).
      apply (cat_i _ _ (bs " ") (bs "097 ") S). apply (cat_i _ _ (bs "09") (bs "7 ")); [apply (cat_i _ _ (bs "0") (bs "9")); now apply digit_text|]. apply (cat_i _ _ (bs "7") (bs " ")); [|exact S]. apply cat_nil_r; [now apply digit_text | constructor].
    + apply date_rejected_everywhere; [discriminate|]. eexists _, _. vm_compute. reflexivity.
  - exists (bs "1 Jan 1997 02:03Z"). split.
    + apply (date_list _ (bs " 1997 ") (bs "Z") []); [apply year_1997 | | now left]. right. right. left. split; [reflexivity|]. right. left. exists 90%N. auto.
    + apply date_rejected_everywhere; [discriminate|]. eexists _, _. vm_compute. reflexivity.
Qed.

(** ** Two-digit years.  Section 4.3: 00 to 49 are 2000 to 2049, 50 to 99 are 1950 to 1999. *)
Definition rfc_two_digit (y : Z) : Z := (if y <=? 49 then 2000 + y else 1900 + y)%Z.

Theorem C67_two_digit_years : forall e s t d, s <> [] -> (2000 <= now_of e <= 2099)%Z ->
  ParseDateTime e s = Ret t None -> strip_text s = spell d -> wf_date d -> length (d_year d) = 2%nat ->
  exists Y k,
    nth_error month_names k = Some (to_lower (d_mon d)) /\
    t_unix t = (86400 * day_number Y (Z.of_nat k + 1) (num (d_day d))
                + 3600 * num (d_hour d) + 60 * num (d_min d) + num (d_sec d) - loc_offset (t_loc t))%Z /\
    (* the year read is the year of the standard, if both or neither put it before 2000 *)
    (Y = rfc_two_digit (num (d_year d)) <-> (num (d_year d) <= 49 <-> num (d_year d) <= now_of e - 2000))%Z /\
    (* so it always is in 2049 only *)
    (now_of e = 2049 -> Y = rfc_two_digit (num (d_year d)))%Z.
Proof.
  intros e s t d Hs Hn H S W L. destruct (C37_two_digit_years e s t d Hs Hn H S W L) as (Y & k & R & M & U & K & T). exists Y, k. split; [exact K|]. split; [exact T|].
  assert (B : (0 <= num (d_year d) <= 99)%Z) by (rewrite <- M; pose proof (Z.mod_pos_bound Y 100); lia). unfold rfc_two_digit.
  pose proof (Z.div_mod Y 100 ltac:(lia)) as D. rewrite M in D. destruct (Z.leb_spec (num (d_year d)) 49); split; lia.
Qed.

(** in 2020, "30" is 1930 for the package and 2030 for the standard *)
Example C67_years_met : exists t, ParseDateTime env0 (bs "1 Jan 30 02:03 +0000") = Ret t None /\
  t_unix t = (86400 * day_number 1930 1 1 + 7380)%Z /\ rfc_two_digit 30 = 2030%Z /\ day_number 1930 1 1 <> day_number 2030 1 1.
Proof. eexists. split; [vm_compute; reflexivity|]. vm_compute. repeat split; discriminate. Qed.

(** ** C68: the address lists of RFC 5322 are read with their meaning in RFC 5322 *)
Theorem C68_reads_address_lists : forall e s l,
  address_list_means (but anything address_limits) nowhere (decode s) l ->
  no_intro (decode s) -> paired (decode s) ->
  exists sl, ParseAddressList e s = Ret sl None /\ elems sl = map box_address l.
Proof.
  intros e s l H N P. apply (C16_empty_entries e s false); [|exact P].
  apply (address_list_in_m (but anything address_limits) nowhere); try (intros [_ A]; apply A; cbn; tauto); [intros p [] | exact H | exact N].
Qed.

(** without empty entries and groups, quotes need not be looked at *)
Theorem C68_reads_mailbox_lists : forall e s l,
  mailbox_list_means (but anything (O_mbox_list :: address_limits)) nowhere (decode s) l ->
  no_intro (decode s) ->
  ParseAddressList e s = Ret (Some (map box_address l)) None.
Proof.
  intros e s l H N. apply (C15_mailbox_list e s false).
  apply (mailboxes_in_m (but anything (O_mbox_list :: address_limits)) nowhere); try (intros [_ A]; apply A; cbn; tauto); [intros p [] | exact H | exact N].
Qed.

(** What has a meaning: the texts of the standard, apart from names written as obs-phrase. *)
Theorem C68_meaning_exists : forall x,
  address_list (but standard [O_phrase]) x <-> exists l, address_list_means (but standard [O_phrase]) anywhere x l.
Proof.
  intros x. split.
  - apply address_list_exists; [intros [_ A]; apply A; cbn; tauto | intros f F [A _]; exact (A F)].
  - intros [l H]. exact (address_list_syntax _ _ _ _ H).
Qed.

(** ** At each of the places the result differs from the meaning *)
Lemma named_box (on : form -> Prop) at_ x n : phrase_means on at_ x n -> (forall w n', n = [] :: w :: n' -> at_ Empty_first_word) ->
  address_list_means on at_ (x ++ bs "<a@b>") [mkBox (spaced n) (bs "a") (bs "b")].
Proof.
  intros H N. assert (D : forall r, in_range 97%N 122%N r = true -> dot_atom_means on [r] [r]).
  { intros r R. apply (da_means on [] [r] []); [now left | | now left]. apply cat_nil_r; [now apply letter|]. apply cat_nil_r; [constructor | now left]. }
  apply en_one. left. eexists. split; [|reflexivity]. apply mb_named; [exact H | exact N|]. apply (an_means on at_ [] (bs "a@b") (bs "a") (bs "b") []); [now left | | now left].
  apply (sp_means on at_ (bs "a") (bs "a") (bs "b") (bs "b")); [apply lo_dot | apply do_dot]; now apply D.
Qed.

Lemma quoted_box (on : form -> Prop) at_ b v : quoted_means on at_ b v -> phrase_means on at_ (bs """" ++ b ++ bs """") [v].
Proof.
  intros H. apply ph_one. right. pose proof (qs_means on at_ [] b v [] (or_introl eq_refl) H (or_introl eq_refl)) as K. cbn [app] in K. rewrite app_nil_r in K. exact K.
Qed.

Lemma plain_text x : forallb (fun r => negb ((r =? 61) || (r =? 58))%N) x = true -> no_intro x /\ paired x.
Proof.
  intros A. rewrite forallb_forall in A. split.
  - intros p q ->. assert (K : In 61%N (p ++ bs "=?" ++ q)) by (apply in_app_iff; right; now left). specialize (A 61%N K). discriminate A.
  - right. left. intros I. specialize (A 58%N I). discriminate A.
Qed.

Theorem C68_places : forall p, exists s l,
  address_list_means standard (eq p) (decode s) l /\ (no_intro (decode s) /\ paired (decode s)) /\
  forall e, exists sl, ParseAddressList e s = Ret sl None /\ elems sl <> map box_address l.
Proof.
  assert (X : forall c, in_range 97%N 122%N c = true -> qtext standard [c]) by (intros c C; right; right; left; exists c; split; [reflexivity|]; apply in_range_spec in C; apply in_range_spec; lia).
  assert (W : FWS standard (bs " ")) by apply space.
  assert (Z : forall p q, inner standard (eq p) q []) by (intros p q; split; [now left | intros []]).
  assert (NL : forall p, inner standard (eq p) p (crlf ++ bs " ")).
  { intros p. split; [|now intros _]. right. left. apply (cat_i _ _ crlf (bs " ")); [right; apply cat_n; [constructor | reflexivity]|]. apply cat_nil_r; [now left | constructor]. }
  assert (E0 : forall p, quoted_means standard (eq p) [] []) by (intros p; apply (qm_end standard (eq p) []); [apply Z | congruence]).
  intros p. destruct p.
  - exists (bs """a" ++ crlf ++ bs " b""<a@b>"), [mkBox (bs "a b") (bs "a") (bs "b")]. split; [|split; [apply plain_text; reflexivity|]].
    + apply (named_box standard _ (bs """a" ++ crlf ++ bs " b""") [bs "a b"]); [|intros w n' [=]]. apply (quoted_box standard _ (bs "a" ++ crlf ++ bs " b")).
      apply (qm_text standard _ [] (bs "a") (crlf ++ bs " b") (bs " b")); [apply Z | now apply X|].
      apply (qm_text standard _ (crlf ++ bs " ") (bs "b") [] []); [apply NL | now apply X | apply E0].
    + intros e. eexists. split; [vm_compute; reflexivity | vm_compute; discriminate].
  - exists (bs """a ""<a@b>"), [mkBox (bs "a ") (bs "a") (bs "b")]. split; [|split; [apply plain_text; reflexivity|]].
    + apply (named_box standard _ (bs """a """) [bs "a "]); [|intros w n' [=]]. apply (quoted_box standard _ (bs "a ")).
      apply (qm_text standard _ [] (bs "a") (bs " ") (bs " ")); [apply Z | now apply X|]. apply (qm_end standard _ (bs " ")); [|reflexivity]. split; [right; exact W | intros [E|[]]; discriminate E].
    + intros e. eexists. split; [vm_compute; reflexivity | vm_compute; discriminate].
  - exists (bs """\" ++ [1%N] ++ bs """<a@b>"), [mkBox [1%N] (bs "a") (bs "b")]. split; [|split; [apply plain_text; reflexivity|]].
    + apply (named_box standard _ (bs """\" ++ [1%N] ++ bs """") [[1%N]]); [|intros w n' [=]]. apply (quoted_box standard _ (bs "\" ++ [1%N])).
      apply (qm_pair standard _ [] [1%N] [] []); [apply Z | | reflexivity | apply E0]. right. split; [intros K; cbn in K; intuition discriminate|]. apply cat_lit. right. left. left. exists 1%N. auto.
    + intros e. eexists. split; [vm_compute; reflexivity | vm_compute; discriminate].
  - exists (bs """""a<a@b>"), [mkBox (bs " a") (bs "a") (bs "b")]. split; [|split; [apply plain_text; reflexivity|]].
    + apply (named_box standard _ (bs """""a") [[]; bs "a"]); [|reflexivity].
      apply (ph_more standard _ (bs """""") [] (bs "a") [bs "a"]).
      * right. apply (qs_means standard _ [] [] [] []); [now left | apply E0 | now left].
      * apply ph_one. left. apply (at_means standard [] (bs "a") []); [now left | now apply letter | now left].
      * apply not_touching_left. intros q r E. right. change (bs """""") with ([34%N] ++ [34%N]) in E. now apply app_inj_tail in E as [_ <-].
    + intros e. eexists. split; [vm_compute; reflexivity | vm_compute; discriminate].
  - exists (bs "a@[b" ++ crlf ++ bs " c]"), [mkBox [] (bs "a") (bs "[b c]")]. split; [|split; [apply plain_text; reflexivity|]].
    + apply en_one. left. eexists. split; [|reflexivity]. apply mb_spec. apply (sp_means standard _ (bs "a") (bs "a") (bs "[b" ++ crlf ++ bs " c]") (bs "[b c]")).
      * apply lo_dot. apply (da_means standard [] (bs "a") []); [now left | | now left]. apply cat_nil_r; [now apply letter|]. apply cat_nil_r; [constructor | now left].
      * assert (DT : forall c, in_range 97%N 122%N c = true -> rfc_dtext standard [c]) by (intros c C; right; left; exists c; split; [reflexivity|]; apply in_range_spec in C; apply in_range_spec; lia).
        apply (do_literal standard _ [] (bs "b" ++ crlf ++ bs " c") (bs "b c") []); [now left | | now left].
        apply (li_text standard _ [] (bs "b") (crlf ++ bs " c") (bs " c")); [apply Z | now apply DT|]. apply (li_text standard _ (crlf ++ bs " ") (bs "c") [] []); [apply NL | now apply DT|]. apply (li_end standard _ []). apply Z.
    + intros e. eexists. split; [vm_compute; reflexivity | vm_compute; discriminate].
Qed.

(** Concrete texts that meet the hypotheses. *)
Lemma named_and_group (on : form -> Prop) at_ : address_list_means on at_ (bs "x y<a@b>,g:;") [mkBox (bs "x y") (bs "a") (bs "b")].
Proof.
  assert (W : optional (CFWS on) (bs " ")) by (right; right; apply space).
  assert (Z : optional (CFWS on) []) by now left.
  assert (L : forall c, in_range 97%N 122%N c = true -> word_means on at_ [c] [c]) by (intros c C; left; apply (at_means on [] [c] []); [exact Z | now apply letter | exact Z]).
  assert (D : forall r, in_range 97%N 122%N r = true -> dot_atom_means on [r] [r]).
  { intros r R. apply (da_means on [] [r] []); [exact Z | | exact Z]. apply cat_nil_r; [now apply letter|]. apply cat_nil_r; [constructor | now left]. }
  apply (en_more on O_addr_list (address_means on at_) (bs "x y<a@b>") [mkBox (bs "x y") (bs "a") (bs "b")] true (bs "g:;") []).
  - left. eexists. split; [|reflexivity]. apply (mb_named on at_ (bs "x y") [bs "x"; bs "y"] (bs "<a@b>")); [|intros w n' [=]|].
    + apply (ph_more on at_ (bs "x ") (bs "x") (bs "y") [bs "y"]).
      * left. apply (at_means on [] (bs "x") (bs " ")); [exact Z | now apply letter | exact W].
      * apply ph_one. now apply L.
      * apply not_touching_left. intros q r E. left. change (bs "x ") with ([120%N] ++ [32%N]) in E. apply app_inj_tail in E as [_ <-]. cbn. auto.
    + apply (an_means on at_ [] (bs "a@b") (bs "a") (bs "b") []); [exact Z | | exact Z]. apply (sp_means on at_ (bs "a") (bs "a") (bs "b") (bs "b")); [apply lo_dot | apply do_dot]; now apply D.
  - apply en_one. right. apply (gr_means on at_ (bs "g") [bs "g"] [] [] []); [apply ph_one; now apply L | now apply gl_none | exact Z].
Qed.

Example C66_met : address_list (but standard address_limits) (decode (bs "x y<a@b>,g:;")).
Proof. exact (address_list_syntax _ _ _ _ (named_and_group (but standard address_limits) nowhere)). Qed.

Example C67_met : rfc_date_time (but standard date_limits) (decode (bs "1 Jan 1997 02:03 +0000")).
Proof. apply (date_list _ (bs " 1997 ") (bs " +0000") []); [apply year_1997 | apply zone_0000 | now left]. Qed.

Example C68_met : exists l, address_list_means (but anything address_limits) nowhere (decode (bs "x y<a@b>,g:;")) l /\
  no_intro (decode (bs "x y<a@b>,g:;")) /\ paired (decode (bs "x y<a@b>,g:;")) /\ l <> [].
Proof.
  eexists. split; [apply named_and_group|]. split; [|split; [|discriminate]].
  - intros p q E. assert (I : In 61%N (bs "x y<a@b>,g:;")) by (change (decode (bs "x y<a@b>,g:;")) with (bs "x y<a@b>,g:;") in E; rewrite E; apply in_app_iff; right; now left). cbn in I. intuition discriminate.
  - left. intros I. cbn in I. intuition discriminate.
Qed.

(** a line of blanks between two words *)
Definition blank_line : gostring := bs "x" ++ crlf ++ bs " " ++ crlf ++ bs " y<a@b>".

Example C68_blank_line_met : mailbox_list_means (but anything (O_mbox_list :: address_limits)) nowhere (decode blank_line) [mkBox (bs "x y") (bs "a") (bs "b")] /\
  no_intro (decode blank_line) /\ ~ one_fold (decode blank_line).
Proof.
  split; [|split; [now apply plain_text|]].
  - set (on := but anything (O_mbox_list :: address_limits)). assert (Z : optional (CFWS on) []) by now left.
    assert (W : optional (CFWS on) (crlf ++ bs " ")).
    { right. right. left. exists crlf, (bs " "). split; [reflexivity|]. split; [right; exists [], crlf; split; [reflexivity|]; split; [constructor | reflexivity]|]. apply cat_nil_r; [now left | constructor]. }
    assert (D : forall r, in_range 97%N 122%N r = true -> dot_atom_means on [r] [r]).
    { intros r R. apply (da_means on [] [r] []); [exact Z | | exact Z]. apply cat_nil_r; [now apply letter|]. apply cat_nil_r; [constructor | now left]. }
    apply en_one. eexists. split; [|reflexivity]. apply (mb_named on nowhere (bs "x" ++ crlf ++ bs " " ++ crlf ++ bs " y") [bs "x"; bs "y"] (bs "<a@b>")); [|intros w n' [=]|].
    + apply (ph_more on nowhere (bs "x" ++ crlf ++ bs " ") (bs "x") (crlf ++ bs " y") [bs "y"]).
      * left. apply (at_means on [] (bs "x") (crlf ++ bs " ")); [exact Z | now apply letter | exact W].
      * apply ph_one. left. apply (at_means on (crlf ++ bs " ") (bs "y") []); [exact W | now apply letter | exact Z].
      * apply not_touching_left. intros q r E. left. change (bs "x" ++ crlf ++ bs " ") with ((bs "x" ++ crlf) ++ [32%N]) in E. apply app_inj_tail in E as [_ <-]. cbn. auto.
    + apply (an_means on nowhere [] (bs "a@b") (bs "a") (bs "b") []); [exact Z | | exact Z]. apply (sp_means on nowhere (bs "a") (bs "a") (bs "b") (bs "b")); [apply lo_dot | apply do_dot]; now apply D.
  - intros O. specialize (O (bs "x") (bs " ") (bs " y<a@b>") eq_refl). discriminate O.
Qed.
Print Assumptions C66_address_list_syntax.
Print Assumptions C67_date_time_syntax.
Print Assumptions C68_reads_address_lists.
Print Assumptions C68_places.
