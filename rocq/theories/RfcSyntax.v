(** RfcMeaning.v against Rfc5322.v: exactly the texts of the syntax have a meaning (except names written
    as obs-phrase). *)
From Coq Require Import String List NArith ZArith Bool Arith Lia.
From Verif Require Import Lexer Utf8 Strs DateSpec AddrSpec AddrText AcceptText AcceptFacts Rfc5322 RfcFacts RfcMeaning.
Import ListNotations.
Local Open Scope text_scope.

Lemma cat_i (P Q : texts) u v : P u -> Q v -> (P ;; Q) (u ++ v).
Proof. intros A B. exists u, v. auto. Qed.

Lemma lit_i s : lit s (bs s).
Proof. reflexivity. Qed.

Lemma cat_lit (P : texts) s v : P v -> (lit s ;; P) (bs s ++ v).
Proof. intros A. now apply cat_i. Qed.

Lemma cat_nil_r (P Q : texts) u : P u -> Q [] -> (P ;; Q) u.
Proof. intros A B. exists u, []. split; [symmetry; apply app_nil_r | auto]. Qed.

Lemma some_i (P : texts) u v : P u -> many P v -> some P (u ++ v).
Proof. apply cat_i. Qed.

Section syntax.
  Variables (on : form -> Prop) (at_ : place -> Prop).
  Notation gap := (rgap on).

  (** ** A text with a meaning is in the syntax *)
  Lemma quoted_means_syntax b v : quoted_means on at_ b v -> (many (optional (FWS on) ;; qcontent on) ;; optional (FWS on)) b.
  Proof.
    induction 1 as [u [U _] _|u c b v [U _] C H (x & y & -> & X & Y)|u c b v [U _] C _ H (x & y & -> & X & Y)].
    - exists [], u. split; [reflexivity|]. split; [constructor | exact U].
    - exists ((u ++ c) ++ x), y. split; [now rewrite <- !app_assoc|]. split; [|exact Y]. constructor; [|exact X]. apply cat_i; [exact U | now left].
    - exists ((u ++ bs "\" ++ c) ++ x), y. split; [now rewrite <- !app_assoc|]. split; [|exact Y]. constructor; [|exact X]. apply cat_i; [exact U | now right].
  Qed.

  Lemma quoted_string_syntax x v : quoted_string_means on at_ x v -> rfc_quoted_string on x.
  Proof.
    intros [g b t g' G B G']. apply quoted_means_syntax in B as (y & u & -> & Y & U). apply cat_i; [exact G|]. replace ((bs """" ++ (y ++ u) ++ bs """") ++ g') with (bs """" ++ y ++ u ++ bs """" ++ g') by (now rewrite <- !app_assoc).
    apply cat_lit. apply cat_i; [exact Y|]. apply cat_i; [exact U|]. now apply cat_lit.
  Qed.

  Lemma atom_syntax x v : atom_means on x v -> rfc_atom on x.
  Proof. intros [g a g' G A G']. apply cat_i; [exact G|]. now apply cat_i. Qed.

  Lemma word_syntax x v : word_means on at_ x v -> rfc_word on x.
  Proof. intros [H|H]; [left; exact (atom_syntax _ _ H) | right; left; exact (quoted_string_syntax _ _ H)]. Qed.

  Lemma phrase_syntax x n : phrase_means on at_ x n -> phrase on x.
  Proof.
    intros H. left. induction H as [x v W|x v y l W H IH _].
    - apply cat_nil_r; [exact (word_syntax _ _ W) | constructor].
    - apply some_i; [exact (word_syntax _ _ W)|]. destruct IH as (a & b & -> & A & B). now constructor.
  Qed.

  Lemma dotted_syntax (W : list rune -> list rune -> Prop) (P : texts) x v : (forall x v, W x v -> P x) -> dotted_means W x v -> (P ;; many (lit "." ;; P)) x.
  Proof.
    intros K H. induction H as [x v H|x v y w H H' IH]; [apply cat_nil_r; [exact (K _ _ H) | constructor]|].
    destruct IH as (a & b & -> & A & B). apply cat_i; [exact (K _ _ H)|]. rewrite app_assoc. constructor; [now apply cat_lit | exact B].
  Qed.

  Lemma dot_atom_syntax x v : dot_atom_means on x v -> rfc_dot_atom on x.
  Proof. intros [g a g' G A G']. apply cat_i; [exact G|]. now apply cat_i. Qed.

  Lemma local_syntax x v : local_means on at_ x v -> local_part on x.
  Proof.
    intros [y w H|y w H|y w O H]; [left; exact (dot_atom_syntax _ _ H) | right; left; exact (quoted_string_syntax _ _ H) |].
    right. right. split; [exact O|]. exact (dotted_syntax _ _ _ _ word_syntax H).
  Qed.

  Lemma literal_syntax b v : literal_means on at_ b v -> (many (optional (FWS on) ;; rfc_dtext on) ;; optional (FWS on)) b.
  Proof.
    induction 1 as [u [U _]|u c b v [U _] C H (x & y & -> & X & Y)].
    - exists [], u. split; [reflexivity|]. split; [constructor | exact U].
    - exists ((u ++ c) ++ x), y. split; [now rewrite <- !app_assoc|]. split; [|exact Y]. constructor; [|exact X]. now apply cat_i.
  Qed.

  Lemma domain_syntax x v : domain_means on at_ x v -> domain on x.
  Proof.
    intros [y w H|g b w g' G H G'|y w O H].
    - left. exact (dot_atom_syntax _ _ H).
    - right. left. apply literal_syntax in H as (y & u & -> & Y & U). apply cat_i; [exact G|]. replace ((bs "[" ++ (y ++ u) ++ bs "]") ++ g') with (bs "[" ++ y ++ u ++ bs "]" ++ g') by (now rewrite <- !app_assoc).
      apply cat_lit. apply cat_i; [exact Y|]. apply cat_i; [exact U|]. now apply cat_lit.
    - right. right. split; [exact O|]. exact (dotted_syntax _ _ _ _ atom_syntax H).
  Qed.

  Lemma spec_syntax x l d : spec_means on at_ x l d -> addr_spec on x.
  Proof. intros [y l' z d' L D]. apply cat_i; [exact (local_syntax _ _ L)|]. apply cat_lit. apply cat_nil_r; [exact (domain_syntax _ _ D) | now left]. Qed.

  Lemma angle_syntax x l d : angle_means on at_ x l d -> angle_addr on x.
  Proof.
    intros [g y l' d' g' G S G'|g r y l' d' g' O G R S G']; apply spec_syntax in S.
    - left. apply cat_i; [exact G|]. rewrite <- !app_assoc. apply cat_lit. apply cat_i; [exact S|]. now apply cat_lit.
    - right. left. split; [exact O|]. apply cat_i; [exact G|]. rewrite <- !app_assoc. apply cat_lit. apply cat_i; [exact R|]. apply cat_i; [exact S|]. now apply cat_lit.
  Qed.

  Lemma mailbox_syntax x m : mailbox_means on at_ x m -> mailbox on x.
  Proof.
    intros [y l d S|y l d A|y n z l d P _ A].
    - right. exact (spec_syntax _ _ _ S).
    - left. exists [], y. split; [reflexivity|]. split; [now left | exact (angle_syntax _ _ _ A)].
    - left. apply cat_i; [right; exact (phrase_syntax _ _ P) | exact (angle_syntax _ _ _ A)].
  Qed.

  (** entries *)
  Section entry.
    Variables (f : form) (P : list rune -> list box -> Prop) (Q : texts).
    Hypothesis PQ : forall x l, P x l -> Q x.

    Definition proper : texts := Q ;; many (lit "," ;; Q).
    Definition sparse_list : texts := many (gap ;; lit ",") ;; Q ;; many (lit "," ;; optional (Q <|> CFWS on)).
    Definition no_entries : texts := many (gap ;; lit ",") ;; gap.

    Lemma gap_entry x : gap x -> optional (Q <|> CFWS on) x.
    Proof. intros [->|H]; [now left | right; now right]. Qed.

    (** a comma before gaps and commas *)
    Lemma shift_commas x : many (gap ;; lit ",") x -> exists y, bs "," ++ x = y ++ bs "," /\ many (lit "," ;; optional (Q <|> CFWS on)) y.
    Proof.
      induction 1 as [|u x (g & c & -> & G & C) H (y & E & Y)]; [exists []; split; [reflexivity | constructor]|]. unfold lit in C. subst c.
      exists ((bs "," ++ g) ++ y). split; [|constructor; [apply cat_lit; now apply gap_entry | exact Y]]. rewrite <- !app_assoc, <- E. reflexivity.
    Qed.

    Lemma entries_syntax b x l : entries_mean on f P b x l -> if b then proper x \/ on f /\ sparse_list x else on f /\ no_entries x.
    Proof.
      induction 1 as [x l A|x l b y l' A E IH|x F G|x b y l F G E IH].
      - left. apply cat_nil_r; [exact (PQ _ _ A) | constructor].
      - destruct b; [destruct IH as [(q & z & -> & Hq & Z)|[F (c & z & -> & C & q & w & -> & Hq & W)]] | destruct IH as [F (c & g & -> & C & G)]].
        + left. apply cat_i; [exact (PQ _ _ A)|]. rewrite app_assoc. constructor; [now apply cat_lit | exact Z].
        + right. split; [exact F|]. destruct (shift_commas c C) as (k & E2 & K). exists [], (x ++ bs "," ++ c ++ q ++ w). split; [reflexivity|]. split; [constructor|]. apply cat_i; [exact (PQ _ _ A)|].
          replace (bs "," ++ c ++ q ++ w) with (k ++ (bs "," ++ q) ++ w) by (rewrite (app_assoc (bs ",") c), E2, <- !app_assoc; reflexivity). apply many_app; [exact K|]. constructor; [apply cat_lit; right; now left | exact W].
        + right. split; [exact F|]. destruct (shift_commas c C) as (k & E2 & K). exists [], (x ++ bs "," ++ c ++ g). split; [reflexivity|]. split; [constructor|]. apply cat_i; [exact (PQ _ _ A)|].
          replace (bs "," ++ c ++ g) with (k ++ (bs "," ++ g) ++ []) by (rewrite (app_assoc (bs ",") c), E2, app_nil_r, <- !app_assoc; reflexivity). apply many_app; [exact K|]. constructor; [apply cat_lit; now apply gap_entry | constructor].
      - split; [exact F|]. exists [], x. split; [reflexivity|]. split; [constructor | exact G].
      - assert (L : (gap ;; lit ",") (x ++ bs ",")) by now apply cat_i.
        destruct b; [destruct IH as [(q & z & -> & Hq & Z)|[_ (c & z & -> & C & q & w & -> & Hq & W)]] | destruct IH as [_ (c & g & -> & C & Hg)]].
        + right. split; [exact F|]. exists ((x ++ bs ",") ++ []), (q ++ z). split; [now rewrite app_nil_r, <- app_assoc|]. split; [constructor; [exact L | constructor]|]. apply cat_i; [exact Hq|].
          revert Z. apply many_mono. apply cat_mono; [apply within_refl|]. intros k K. right. now left.
        + right. split; [exact F|]. exists ((x ++ bs ",") ++ c), (q ++ w). split; [now rewrite <- !app_assoc|]. split; [now constructor | now apply cat_i].
        + split; [exact F|]. exists ((x ++ bs ",") ++ c), g. split; [now rewrite <- !app_assoc|]. split; [now constructor | exact Hg].
    Qed.

    (** ** and back *)
    Hypothesis QP : forall x, Q x -> exists l, P x l.

    Lemma proper_means x : proper x -> exists l, entries_mean on f P true x l.
    Proof.
      intros (q & z & -> & Hq & Z). revert q Hq. induction Z as [|u z (c & q' & -> & C & Hq') Z IH]; intros q Hq; destruct (QP q Hq) as [l A].
      - exists l. rewrite app_nil_r. now apply en_one.
      - unfold lit in C. subst c. destruct (IH q' Hq') as [l' B]. exists (l ++ l'). rewrite <- app_assoc. exact (en_more on f P q l true (q' ++ z) l' A B).
    Qed.

    Lemma no_entries_means x : on f -> no_entries x -> entries_mean on f P false x [].
    Proof.
      intros F (c & g & -> & C & G). induction C as [|u c (h & k & -> & H & K) C IH]; [now apply en_empty|]. unfold lit in K. subst k. rewrite <- !app_assoc. now apply en_skip.
    Qed.

    Lemma tail_means q z : on f -> Q q -> many (lit "," ;; optional (Q <|> CFWS on)) z -> exists l, entries_mean on f P true (q ++ z) l.
    Proof.
      intros F Hq Z. assert (K : forall z, many (lit "," ;; optional (Q <|> CFWS on)) z -> z = [] \/ exists b y l, z = bs "," ++ y /\ entries_mean on f P b y l).
      { clear q z Hq Z. induction 1 as [|u z (c & o & -> & C & O) Z IH]; [now left|]. right. unfold lit in C. subst c. rewrite <- app_assoc.
        assert (O' : gap o \/ Q o) by (destruct O as [->|[O|O]]; [left; now left | now right | left; now right]). destruct IH as [->|(b & y & l & -> & E)].
        - rewrite app_nil_r. destruct O' as [G|Hq]; [exists false, o, []; split; [reflexivity | now apply en_empty]|]. destruct (QP o Hq) as [l A]. exists true, o, l. split; [reflexivity | now apply en_one].
        - destruct O' as [G|Hq]; [exists b, (o ++ bs "," ++ y), l; split; [reflexivity | now apply en_skip]|]. destruct (QP o Hq) as [l' A]. exists true, (o ++ bs "," ++ y), (l' ++ l). split; [reflexivity|]. exact (en_more on f P o l' b y l A E). }
      destruct (QP q Hq) as [l A]. destruct (K z Z) as [->|(b & y & l' & -> & E)]; [exists l; rewrite app_nil_r; now apply en_one|]. exists (l ++ l'). exact (en_more on f P q l b y l' A E).
    Qed.

    Lemma sparse_means x : on f -> sparse_list x -> exists l, entries_mean on f P true x l.
    Proof.
      intros F (c & z & -> & C & q & w & -> & Hq & W). destruct (tail_means q w F Hq W) as [l A]. exists l. induction C as [|u c (h & k & -> & H & K) C IH]; [exact A|]. unfold lit in K. subst k. rewrite <- !app_assoc. now apply en_skip.
    Qed.
  End entry.

  Lemma mailbox_list_syntax x l : mailbox_list_means on at_ x l -> mailbox_list on x.
  Proof.
    intros H. destruct (entries_syntax O_mbox_list (one_box on at_) (mailbox on)) with (2 := H) as [K|K]; [|now left | now right]. intros y k (m & M & _). exact (mailbox_syntax _ _ M).
  Qed.

  Lemma one_box_syntax x l : one_box on at_ x l -> mailbox on x.
  Proof. intros (m & M & _). exact (mailbox_syntax _ _ M). Qed.

  Lemma group_syntax x l : group_means on at_ x l -> group on x.
  Proof.
    intros [y n z l' g P L G]. exists [], (y ++ bs ":" ++ z ++ bs ";" ++ g). split; [reflexivity|]. split; [now left|]. apply cat_i; [exact (phrase_syntax _ _ P)|]. apply cat_lit. apply cat_i; [|exists [], (bs ";" ++ g); split; [reflexivity|]; split; [now left|]; apply cat_i; [now left | exact G]]. destruct L as [z l' L|z [->|L]|z L].
    - right. left. exact (mailbox_list_syntax _ _ L).
    - now left.
    - right. right. now left.
    - pose proof (entries_syntax O_group_list (one_box on at_) (mailbox on) one_box_syntax _ _ _ L) as [F (c & h & -> & C & H)]. destruct C as [|u c U C].
      + destruct H as [->|H]; [now left | right; right; now left].
      + right. right. right. split; [exact F|]. apply cat_i; [|exact H]. now apply some_i.
  Qed.

  Lemma address_syntax x l : address_means on at_ x l -> address on x.
  Proof. intros [H|H]; [left; exact (one_box_syntax _ _ H) | right; exact (group_syntax _ _ H)]. Qed.

  Lemma address_list_syntax x l : address_list_means on at_ x l -> address_list on x.
  Proof. intros H. destruct (entries_syntax O_addr_list (address_means on at_) (address on) address_syntax _ _ _ H) as [K|K]; [now left | right; now left]. Qed.
End syntax.

(** ** A text of the syntax has a meaning *)
Definition begins (C : rune -> Prop) (P : texts) : Prop := forall x, P x -> exists r y, x = r :: y /\ C r.
Definition ends_in (C : rune -> Prop) (P : texts) : Prop := forall x, P x -> exists y r, x = y ++ [r] /\ C r.

Section ends_.
  Variable C : rune -> Prop.

  Lemma begins_cat (P Q : texts) : begins C P -> begins C (P ;; Q).
  Proof. intros H x (u & v & -> & U & V). destruct (H u U) as (r & y & -> & K). exists r, (y ++ v). auto. Qed.

  Lemma begins_opt (P Q : texts) : begins C P -> begins C Q -> begins C (optional P ;; Q).
  Proof. intros H K x (u & v & -> & [->|U] & V); [exact (K v V)|]. destruct (H u U) as (r & y & -> & R). exists r, (y ++ v). auto. Qed.

  Lemma begins_many (P Q : texts) : begins C P -> begins C Q -> begins C (many P ;; Q).
  Proof. intros H K x (u & v & -> & U & V). destruct U as [|a u A U]; [exact (K v V)|]. destruct (H a A) as (r & y & -> & R). exists r, ((y ++ u) ++ v). auto. Qed.

  Lemma begins_either (P Q : texts) : begins C P -> begins C Q -> begins C (P <|> Q).
  Proof. intros H K x [X|X]; auto. Qed.

  Lemma ends_cat (P Q : texts) : ends_in C Q -> ends_in C (P ;; Q).
  Proof. intros H x (u & v & -> & U & V). destruct (H v V) as (y & r & -> & K). exists (u ++ y), r. split; [apply app_assoc | exact K]. Qed.

  Lemma ends_opt (P Q : texts) : ends_in C P -> ends_in C Q -> ends_in C (P ;; optional Q).
  Proof. intros H K x (u & v & -> & U & [->|V]); [rewrite app_nil_r; exact (H u U)|]. destruct (K v V) as (y & r & -> & R). exists (u ++ y), r. split; [apply app_assoc | exact R]. Qed.

  Lemma ends_many (P Q : texts) : ends_in C P -> ends_in C Q -> ends_in C (P ;; many Q).
  Proof.
    intros H K x (u & v & -> & U & V). destruct (H u U) as (y & r & -> & R). clear U. revert y r R. induction V as [|a v A V IH]; intros y r R; [exists y, r; now rewrite app_nil_r|].
    destruct (K a A) as (z & s & -> & S). destruct (IH (y ++ [r] ++ z) s S) as (w & t & E & T). exists w, t. split; [|exact T]. rewrite <- E, <- !app_assoc. reflexivity.
  Qed.

  Lemma ends_either (P Q : texts) : ends_in C P -> ends_in C Q -> ends_in C (P <|> Q).
  Proof. intros H K x [X|X]; auto. Qed.
End ends_.

Section exist.
  Variable on : form -> Prop.
  Hypothesis no_phrase : ~ on O_phrase.
  Hypothesis plain : forall f, In f extensions -> ~ on f.

  Ltac no f := exfalso; apply (plain f); [cbn; tauto | assumption].

  Notation gap := (rgap on).
  Notation means := (fun x v => word_means on anywhere x v).

  Definition opens (r : rune) : Prop := In r [32; 9; 13; 40]%N.
  Definition shuts (r : rune) : Prop := In r [32; 9; 41]%N.

  Lemma WSP_opens : begins opens WSP.
  Proof. intros x [X|X]; unfold lit in X; subst x; eexists _, _; (split; [reflexivity | cbn; auto]). Qed.
  Lemma WSP_shuts : ends_in shuts WSP.
  Proof. intros x [X|X]; unfold lit in X; subst x; exists []; eexists; (split; [reflexivity | cbn; auto]). Qed.
  Lemma CRLF_opens : begins opens CRLF.
  Proof. intros x ->. exists 13%N, [10%N]. cbn. auto. Qed.
  Lemma FWS_opens : begins opens (FWS on).
  Proof.
    apply begins_either.
    - apply begins_opt; [apply begins_many; [exact WSP_opens | exact CRLF_opens] | apply begins_cat, WSP_opens].
    - intros x [_ X]. revert x X. apply begins_cat, begins_cat, WSP_opens.
  Qed.
  Lemma FWS_shuts : ends_in shuts (FWS on).
  Proof.
    assert (S : ends_in shuts (some WSP)) by (apply ends_many; exact WSP_shuts).
    apply ends_either; [now apply ends_cat|]. intros x [_ X]. revert x X. apply ends_many; [exact S | now apply ends_cat].
  Qed.
  Lemma comment_opens : begins opens (rfc_comment on).
  Proof. intros x [y u Y U]. eexists _, _. split; [reflexivity | cbn; auto]. Qed.
  Lemma comment_shuts : ends_in shuts (rfc_comment on).
  Proof. intros x [y u Y U]. exists (bs "(" ++ y ++ u), 41%N. split; [now rewrite <- !app_assoc | cbn; auto]. Qed.
  Lemma CFWS_opens : begins opens (CFWS on).
  Proof. apply begins_either; [|exact FWS_opens]. apply begins_cat, begins_cat, begins_opt; [exact FWS_opens | exact comment_opens]. Qed.
  Lemma CFWS_shuts : ends_in shuts (CFWS on).
  Proof. apply ends_either; [|exact FWS_shuts]. apply ends_opt; [|exact FWS_shuts]. apply ends_many; apply ends_cat, comment_shuts. Qed.

  Lemma atext_one b : atext on b -> exists r, b = [r] /\ ~ opens r /\ ~ shuts r /\ r <> 34%N.
  Proof.
    assert (K : forall r, ((33 <= r <= 126 /\ r <> 34 /\ r <> 40 /\ r <> 41) \/ 128 <= r)%N -> ~ opens r /\ ~ shuts r /\ r <> 34%N).
    { intros r R. unfold opens, shuts. cbn. repeat split; try lia; intros H; repeat (destruct H as [H|H]); try contradiction; lia. }
    assert (ONE : forall p : rune -> bool, one p b -> (forall r, p r = true -> ((33 <= r <= 126 /\ r <> 34 /\ r <> 40 /\ r <> 41) \/ 128 <= r)%N) -> exists r, b = [r] /\ ~ opens r /\ ~ shuts r /\ r <> 34%N).
    { intros p (r & -> & R) H. exists r. split; [reflexivity|]. apply K. now apply H. }
    intros [[A|A]|[A|[A|[[_ A]|[_ A]]]]]; apply (ONE _ A); intros r R; try (apply in_range_spec in R; lia).
    apply existsb_exists in R as (c & I & E). apply N.eqb_eq in E. subst c. left. cbn in I. repeat (destruct I as [<-|I]; [repeat split; lia || discriminate|]). destruct I.
  Qed.

  Lemma some_last P x : some P x -> exists p c, x = p ++ c /\ P c.
  Proof.
    intros (u & w & -> & A & W). revert u A. induction W as [|z w Z W IH]; intros u A; [exists [], u; now rewrite app_nil_r|]. destruct (IH z Z) as (p & c & E & K). exists (u ++ p), c. rewrite E, <- app_assoc. auto.
  Qed.

  Lemma some_app P x y : some P x -> some P y -> some P (x ++ y).
  Proof. intros (u & w & -> & A & W) (u' & w' & -> & A' & W'). rewrite <- app_assoc. apply some_i; [exact A|]. apply many_app; [exact W|]. now constructor. Qed.

  Lemma not_touching_left x y : (forall p r, x = p ++ [r] -> shuts r \/ r = 34%N) -> untouched on x y.
  Proof. intros H p a b q -> _ A _. destruct (atext_one a A) as (r & -> & _ & S & Q). destruct (H p r eq_refl); contradiction. Qed.

  Lemma not_touching_right x y : (forall r q, y = r :: q -> opens r \/ r = 34%N) -> untouched on x y.
  Proof. intros H p a b q _ -> _ B. destruct (atext_one b B) as (r & -> & O & _ & Q). destruct (H r q eq_refl); contradiction. Qed.

  Lemma gap_last x g : gap g -> g <> [] -> forall p r, x ++ g = p ++ [r] -> shuts r.
  Proof. intros [->|G] N p r E; [congruence|]. destruct (CFWS_shuts g G) as (y & s & -> & S). rewrite app_assoc in E. apply app_inj_tail in E as [_ ->]. exact S. Qed.

  Lemma gap_first x g : gap g -> g <> [] -> forall r q, g ++ x = r :: q -> opens r.
  Proof. intros [->|G] N r q E; [congruence|]. destruct (CFWS_opens g G) as (s & y & -> & S). injection E as -> _. exact S. Qed.

  (** a word either ends in an atom or cannot be touched *)
  Lemma word_end x v : means x v -> (exists g, x = g ++ v /\ gap g /\ some (atext on) v) \/ (forall p r, x = p ++ [r] -> shuts r \/ r = 34%N).
  Proof.
    intros [[g a g' G A G']|[g b t g' G B G']].
    - destruct (list_eq_dec N.eq_dec g' []) as [->|N]; [left; exists g; rewrite app_nil_r; auto|]. right. intros p r E. left. rewrite app_assoc in E. exact (gap_last _ _ G' N _ _ E).
    - right. destruct (list_eq_dec N.eq_dec g' []) as [->|N]; intros p r E.
      + right. rewrite app_nil_r in E. assert (E2 : (g ++ bs """" ++ b) ++ [34%N] = p ++ [r]) by (rewrite <- E, <- !app_assoc; reflexivity). apply app_inj_tail in E2 as [_ <-]. reflexivity.
      + left. rewrite app_assoc in E. exact (gap_last _ _ G' N _ _ E).
  Qed.

  Lemma word_start x v : means x v -> (exists g, x = v ++ g /\ gap g /\ some (atext on) v) \/ (forall r q, x = r :: q -> opens r \/ r = 34%N).
  Proof.
    intros [[g a g' G A G']|[g b t g' G B G']].
    - destruct (list_eq_dec N.eq_dec g []) as [->|N]; [left; exists g'; auto|]. right. intros r q E. left. exact (gap_first _ _ G N _ _ E).
    - right. destruct (list_eq_dec N.eq_dec g []) as [->|N]; intros r q E; [right; now injection E as <- _|]. left. exact (gap_first _ _ G N _ _ E).
  Qed.

  Lemma word_nonempty x v : means x v -> x <> [].
  Proof.
    intros [[g a g' G A G']|[g b t g' G B G']] E; apply app_eq_nil in E as [_ E]; [|discriminate]. apply app_eq_nil in E as [-> _]. destruct A as (u & w & E & A & _). destruct (atext_one u A) as (r & -> & _). discriminate.
  Qed.

  Lemma untouched_prefix a x y : x <> [] -> untouched on x y -> untouched on (a ++ x) y.
  Proof.
    intros N U p c b q E -> C B. destruct (atext_one c C) as (r & -> & _). destruct (exists_last N) as (x' & s & ->). rewrite app_assoc in E. apply app_inj_tail in E as [E ->].
    exact (U x' [r] b q eq_refl eq_refl C B).
  Qed.

  Lemma add_word x v y n : means x v -> phrase_means on anywhere y n -> exists n', phrase_means on anywhere (x ++ y) n'.
  Proof.
    intros W H. destruct (word_end x v W) as [(g & -> & G & A)|E]; [|exists (v :: n); apply ph_more; auto; now apply not_touching_left].
    assert (JOIN : forall z w, means z w -> (exists h, z = w ++ h /\ gap h /\ some (atext on) w) -> means ((g ++ v) ++ z) (v ++ w)).
    { intros z w _ (h & -> & Hh & B). left. replace ((g ++ v) ++ w ++ h) with (g ++ (v ++ w) ++ h) by (now rewrite <- !app_assoc). apply at_means; auto. now apply some_app. }
    destruct H as [y w Y|y w z l Y H U].
    - destruct (word_start y w Y) as [S|S]; [exists [v ++ w]; apply ph_one; now apply JOIN|]. exists [v; w]. apply ph_more; [exact W | now apply ph_one | now apply not_touching_right].
    - destruct (word_start y w Y) as [S|S].
      + exists ((v ++ w) :: l). rewrite app_assoc. apply ph_more; [now apply JOIN | exact H|]. apply untouched_prefix; [exact (word_nonempty _ _ Y) | exact U].
      + exists (v :: w :: l). apply ph_more; [exact W | now apply ph_more|]. apply not_touching_right. intros r q E. destruct y as [|s y]; [now apply word_nonempty in Y|]. injection E as -> _. exact (S r y eq_refl).
  Qed.

  Lemma quoted_exists x : rfc_quoted_string on x -> exists v, quoted_string_means on anywhere x v.
  Proof.
    intros (g & x1 & -> & G & q & x2 & -> & Q & b & x3 & -> & B & u & x4 & -> & U & q' & g' & -> & Q' & G'). unfold DQUOTE, lit in Q, Q'. subst q q'.
    assert (K : exists v, quoted_means on anywhere (b ++ u) v).
    { induction B as [|a b (w & c & -> & W & [C|C]) B (v & IH)].
      - exists (unfolded u). apply qm_end; [split; [exact U | intros _; exact Logic.I] | intros _; exact Logic.I].
      - exists (unfolded w ++ c ++ v). rewrite <- !app_assoc. apply qm_text; [split; [exact W | intros _; exact Logic.I] | exact C | exact IH].
      - assert (P : exists c', c = bs "\" ++ c') by (destruct C as [(q & c' & -> & Q & _)|[_ (q & c' & -> & Q & _)]]; unfold lit in Q; subst q; eauto). destruct P as [c' ->].
        exists (unfolded w ++ c' ++ v). replace (((w ++ bs "\" ++ c') ++ b) ++ u) with (w ++ (bs "\" ++ c') ++ b ++ u) by (now rewrite <- !app_assoc). apply qm_pair; [split; [exact W | intros _; exact Logic.I] | exact C | intros _; exact Logic.I | exact IH]. }
    destruct K as [v K]. exists v. assert (E : g ++ (bs """" ++ (b ++ u) ++ bs """") ++ g' = g ++ bs """" ++ b ++ u ++ bs """" ++ g') by (now rewrite <- !app_assoc).
    exact (eq_ind _ (fun z => quoted_string_means on anywhere z v) (qs_means on anywhere g (b ++ u) v g' G K G') _ E).
  Qed.

  Lemma atom_exists x : rfc_atom on x -> exists v, atom_means on x v.
  Proof. intros (g & y & -> & G & a & g' & -> & A & G'). exists a. now apply at_means. Qed.

  Lemma word_exists x : rfc_word on x -> exists v, means x v.
  Proof. intros [H|[H|[X _]]]; [destruct (atom_exists x H) as [v K] | destruct (quoted_exists x H) as [v K] | no X_encoded_words]; exists v; [now left | now right]. Qed.

  Lemma phrase_exists x : phrase on x -> exists n, phrase_means on anywhere x n.
  Proof.
    intros [(w & y & -> & W & Y)|[K _]]; [|contradiction]. revert w W. induction Y as [|z y Z Y IH]; intros w W; destruct (word_exists w W) as [v V].
    - exists [v]. rewrite app_nil_r. now apply ph_one.
    - destruct (IH z Z) as [n P]. exact (add_word w v (z ++ y) n V P).
  Qed.

  Lemma dotted_exists (W : list rune -> list rune -> Prop) (P : texts) x : (forall x, P x -> exists v, W x v) -> (P ;; many (lit "." ;; P)) x -> exists v, dotted_means W x v.
  Proof.
    intros K (w & y & -> & Hw & Y). revert w Hw. induction Y as [|z y (c & z' & -> & C & Z) Y IH]; intros w Hw; destruct (K w Hw) as [v V].
    - exists v. rewrite app_nil_r. now apply dm_one.
    - unfold lit in C. subst c. destruct (IH z' Z) as [u U]. exists (v ++ bs "." ++ u). rewrite <- app_assoc. now apply dm_more.
  Qed.

  Lemma dot_atom_exists x : rfc_dot_atom on x -> exists v, dot_atom_means on x v.
  Proof. intros (g & y & -> & G & a & g' & -> & A & G'). exists a. now apply da_means. Qed.

  Lemma local_exists x : local_part on x -> exists v, local_means on anywhere x v.
  Proof.
    intros [H|[H|[O H]]]; [destruct (dot_atom_exists x H) as [v K]; exists v; now apply lo_dot | destruct (quoted_exists x H) as [v K]; exists v; now apply lo_quoted|].
    destruct (dotted_exists (word_means on anywhere) (rfc_word on) x word_exists H) as [v K]. exists v. now apply lo_obs.
  Qed.

  Lemma domain_exists x : domain on x -> exists v, domain_means on anywhere x v.
  Proof.
    intros [H|[H|[O H]]]; [destruct (dot_atom_exists x H) as [v K]; exists v; now apply do_dot | |destruct (dotted_exists (atom_means on) (rfc_atom on) x atom_exists H) as [v K]; exists v; now apply do_obs].
    destruct H as (g & x1 & -> & G & q & x2 & -> & Q & b & x3 & -> & B & u & x4 & -> & U & q' & g' & -> & Q' & G'). unfold lit in Q, Q'. subst q q'.
    assert (K : exists v, literal_means on anywhere (b ++ u) v).
    { induction B as [|a b (w & c & -> & W & C) B (v & IH)].
      - exists (unfolded u). apply li_end. split; [exact U | intros _; exact Logic.I].
      - exists (unfolded w ++ c ++ v). rewrite <- !app_assoc. apply li_text; [split; [exact W | intros _; exact Logic.I] | exact C | exact IH]. }
    destruct K as [v K]. exists (bs "[" ++ v ++ bs "]"). assert (E : g ++ (bs "[" ++ (b ++ u) ++ bs "]") ++ g' = g ++ bs "[" ++ b ++ u ++ bs "]" ++ g') by (now rewrite <- !app_assoc).
    exact (eq_ind _ (fun z => domain_means on anywhere z _) (do_literal on anywhere g (b ++ u) v g' G K G') _ E).
  Qed.

  Lemma spec_exists x : addr_spec on x -> exists l d, spec_means on anywhere x l d.
  Proof.
    intros (y & z & -> & Y & q & w' & -> & Q & w & k & -> & W & [->|[X _]]); [|no X_port]. rewrite app_nil_r. unfold lit in Q. subst q. destruct (local_exists y Y) as [l L]. destruct (domain_exists w W) as [d D]. exists l, d. now apply sp_means.
  Qed.

  Lemma angle_exists x : angle_addr on x -> exists l d, angle_means on anywhere x l d.
  Proof.
    intros [(g & x1 & -> & G & q & x2 & -> & Q & s & x3 & -> & S & q' & g' & -> & Q' & G')|[[O (g & x1 & -> & G & q & x2 & -> & Q & r & x3 & -> & R & s & x4 & -> & S & q' & g' & -> & Q' & G')]|[X _]]]; [| |no X_empty_angle]; unfold lit in Q, Q'; subst q q'; destruct (spec_exists s S) as (l & d & M); exists l, d.
    - assert (E : g ++ (bs "<" ++ s ++ bs ">") ++ g' = g ++ bs "<" ++ s ++ bs ">" ++ g') by (now rewrite <- !app_assoc).
      exact (eq_ind _ (fun z => angle_means on anywhere z l d) (an_means on anywhere g s l d g' G M G') _ E).
    - assert (E : g ++ (bs "<" ++ r ++ s ++ bs ">") ++ g' = g ++ bs "<" ++ r ++ s ++ bs ">" ++ g') by (now rewrite <- !app_assoc).
      exact (eq_ind _ (fun z => angle_means on anywhere z l d) (an_route on anywhere g r s l d g' O G R M G') _ E).
  Qed.

  Lemma mailbox_exists x : mailbox on x -> exists m, mailbox_means on anywhere x m.
  Proof.
    intros [(y & z & -> & [->|P] & A)|S].
    - destruct (angle_exists z A) as (l & d & M). eexists. exact (mb_angle _ _ _ _ _ M).
    - destruct (angle_exists z A) as (l & d & M). destruct (phrase_exists y P) as [n N]. exists (mkBox (spaced n) l d). apply mb_named; [exact N | intros; exact Logic.I | exact M].
    - destruct (spec_exists x S) as (l & d & M). eexists. exact (mb_spec _ _ _ _ _ M).
  Qed.

  Lemma one_box_exists x : mailbox on x -> exists l, one_box on anywhere x l.
  Proof. intros H. destruct (mailbox_exists x H) as [m M]. exists [m], m. auto. Qed.

  Lemma list_exists f P (Q : texts) x : (forall x, Q x -> exists l, P x l) -> (Q ;; many (lit "," ;; Q) <|> may on f (many (gap ;; lit ",") ;; Q ;; many (lit "," ;; optional (Q <|> CFWS on)))) x -> exists l, entries_mean on f P true x l.
  Proof. intros K [H|[F H]]; [exact (proper_means on f P Q K x H) | exact (sparse_means on f P Q K x F H)]. Qed.

  Lemma group_exists x : group on x -> exists l, group_means on anywhere x l.
  Proof.
    intros (o & x0 & -> & O & n & x1 & -> & N & q & x2 & -> & Q & y & x3 & -> & Y & o' & x4 & -> & O' & q' & g & -> & Q' & G).
    destruct O as [->|[X _]]; [|no X_group_quote]. destruct O' as [->|[X _]]; [|no X_group_quote]. destruct Q' as [Q'|[X _]]; [|no X_open_group]. unfold lit in Q, Q'. subst q q'. cbn [app]. destruct (phrase_exists n N) as [w W].
    assert (K : exists l, group_list_means on anywhere y l).
    { destruct Y as [->|[Y|[Y|[F Y]]]].
      - exists []. apply gl_none. now left.
      - destruct (list_exists O_mbox_list (one_box on anywhere) (mailbox on) y one_box_exists Y) as [l L]. exists l. now apply gl_boxes.
      - exists []. apply gl_none. now right.
      - exists []. apply gl_obs, no_entries_means; [exact F|]. destruct Y as (a & b & -> & (c & d & -> & C & D) & B). exists (c ++ d), b. split; [reflexivity|]. split; [now constructor | exact B]. }
    destruct K as [l L]. exists l. exact (gr_means on anywhere n w y l g W L G).
  Qed.

  Lemma address_exists x : address on x -> exists l, address_means on anywhere x l.
  Proof. intros [H|H]; [destruct (one_box_exists x H) as [l L] | destruct (group_exists x H) as [l L]]; exists l; [now left | now right]. Qed.

  Lemma address_list_exists x : address_list on x -> exists l, address_list_means on anywhere x l.
  Proof. intros [H|[H|[X _]]]; [| |no X_semicolon]; apply (list_exists O_addr_list (address_means on anywhere) (address on) x address_exists); [now left | now right]. Qed.
End exist.
