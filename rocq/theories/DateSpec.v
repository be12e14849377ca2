(** What a date-time text means, stated on characters without reference to the grammar or the
    parser.  Used by the statements of C34-C43 and C46. *)
From Coq Require Import String List NArith ZArith Bool.
From Verif Require Import Lexer Utf8 Strs GoTime.
Import ListNotations.
Local Open Scope N_scope.

(** Delete white space and comments (nested parentheses; a backslash inside a comment takes the
    next character with it).  [n] is the number of open parentheses. *)
Fixpoint strip (n : nat) (rs : list rune) : list rune :=
  match rs with
  | [] => []
  | r :: rs' =>
      match n with
      | O => if (r =? 32) || (r =? 9) || (r =? 13) || (r =? 10) then strip 0 rs'
             else if r =? 40 then strip 1 rs'
             else r :: strip 0 rs'
      | S k => if r =? 92 then match rs' with _ :: rs'' => strip n rs'' | [] => [] end
               else if r =? 40 then strip (S n) rs'
               else if r =? 41 then strip k rs'
               else strip n rs'
      end
  end.

(** The characters the lexer knows. *)
Definition bmp (r : rune) : bool := r <=? 65535.

Definition strip_text (s : gostring) : list rune := strip 0 (filter bmp (decode s)).

(** The parts of a stripped date-time: "[Fri,] 21 Nov 1997 09:55 [:06] [-0600]". *)
Record date_text : Type := mkDate {
  d_dow : list rune;    (* day name or empty *)
  d_day : list rune;
  d_mon : list rune;
  d_year : list rune;
  d_hour : list rune;
  d_min : list rune;
  d_sec : list rune;    (* empty when missing *)
  d_zone : list rune }. (* empty when missing *)

Definition spell (d : date_text) : list rune :=
  (match d_dow d with [] => [] | n => n ++ bs "," end) ++
  d_day d ++ d_mon d ++ d_year d ++ d_hour d ++ bs ":" ++ d_min d ++
  (match d_sec d with [] => [] | n => bs ":" ++ n end) ++ d_zone d.

Definition is_dig (c : rune) : Prop := 48 <= c <= 57.

(** [digits n l]: [l] consists of [n] decimal digits. *)
Definition ndigits (n : nat) (l : list rune) : Prop := length l = n /\ Forall is_dig l.

Definition day_names : list (list rune) :=
  [bs "mon"; bs "tue"; bs "wed"; bs "thu"; bs "fri"; bs "sat"; bs "sun"].

Definition month_names : list (list rune) :=
  [bs "jan"; bs "feb"; bs "mar"; bs "apr"; bs "may"; bs "jun";
   bs "jul"; bs "aug"; bs "sep"; bs "oct"; bs "nov"; bs "dec"].

(** RFC 5322 section 4.3, hours east of Greenwich. *)
Definition zone_names : list (list rune * Z) :=
  [(bs "ut", 0); (bs "utc", 0); (bs "gmt", 0); (bs "est", -5); (bs "edt", -4); (bs "cst", -6);
   (bs "cdt", -5); (bs "mst", -7); (bs "mdt", -6); (bs "pst", -8); (bs "pdt", -7)]%Z.

(** Zones: the location a zone text stands for. *)
Inductive zone_text : list rune -> location -> Prop :=
| Z_none : zone_text [] UTC
| Z_plus : forall h1 h2 m1 m2, Forall is_dig [h1; h2; m1; m2] ->
    zone_text (bs "+" ++ [h1; h2; m1; m2])
      (Fixed (bs "+" ++ [h1; h2; m1; m2])
         (((Z.of_N h1 - 48) * 10 + (Z.of_N h2 - 48)) * 3600 + ((Z.of_N m1 - 48) * 10 + (Z.of_N m2 - 48)) * 60))
| Z_minus : forall h1 h2 m1 m2, Forall is_dig [h1; h2; m1; m2] ->
    zone_text (bs "-" ++ [h1; h2; m1; m2])
      (Fixed (bs "-" ++ [h1; h2; m1; m2])
         (- (((Z.of_N h1 - 48) * 10 + (Z.of_N h2 - 48)) * 3600 + ((Z.of_N m1 - 48) * 10 + (Z.of_N m2 - 48)) * 60)))
| Z_nosign : forall h1 h2 m1 m2, Forall is_dig [h1; h2; m1; m2] ->
    zone_text [h1; h2; m1; m2]
      (Fixed (bs "+" ++ [h1; h2; m1; m2])
         (((Z.of_N h1 - 48) * 10 + (Z.of_N h2 - 48)) * 3600 + ((Z.of_N m1 - 48) * 10 + (Z.of_N m2 - 48)) * 60))
| Z_name : forall n hours, In (to_lower n, hours) zone_names ->
    zone_text n (Fixed n (hours * 3600)).

(** Decimal value. *)
Definition num (l : list rune) : Z :=
  fold_left (fun a c => a * 10 + (Z.of_N c - 48))%Z l 0%Z.

(** A two-digit year is the one in the hundred years ending with the current year (for current
    years 2000-2099, see C37), a four-digit year is itself. *)
Definition year_num (now : Z) (l : list rune) : Z :=
  if Nat.eqb (length l) 2
  then if (Z.rem now 100 <? num l)%Z then (1900 + num l)%Z else (2000 + num l)%Z
  else num l.

(** [denotes now d t]: [d] is a well-formed date-time text and [t] the time it stands for. *)
Definition denotes (now : Z) (d : date_text) (t : time) : Prop :=
  (d_dow d = [] \/ In (to_lower (d_dow d)) day_names) /\
  (ndigits 1 (d_day d) \/ ndigits 2 (d_day d)) /\
  (ndigits 2 (d_year d) \/ ndigits 4 (d_year d)) /\
  (ndigits 1 (d_hour d) \/ ndigits 2 (d_hour d)) /\
  ndigits 2 (d_min d) /\
  (d_sec d = [] \/ ndigits 2 (d_sec d)) /\
  exists k l,
    nth_error month_names k = Some (to_lower (d_mon d)) /\
    zone_text (d_zone d) l /\
    t = go_date (year_num now (d_year d)) (Z.of_nat k + 1) (num (d_day d))
          (num (d_hour d)) (num (d_min d)) (num (d_sec d)) l.

(** What a well-formed text consists of (the conditions of [denotes] without the time). *)
Definition wf_date (d : date_text) : Prop :=
  (d_dow d = [] \/ In (to_lower (d_dow d)) day_names) /\
  (ndigits 1 (d_day d) \/ ndigits 2 (d_day d)) /\
  (ndigits 2 (d_year d) \/ ndigits 4 (d_year d)) /\
  (ndigits 1 (d_hour d) \/ ndigits 2 (d_hour d)) /\
  ndigits 2 (d_min d) /\
  (d_sec d = [] \/ ndigits 2 (d_sec d)) /\
  In (to_lower (d_mon d)) month_names /\
  exists l, zone_text (d_zone d) l.

(** The usual way to write such a text, with single spaces: "Fri, 21 Nov 1997 09:55:06 -0600". *)
Definition canon (d : date_text) : gostring :=
  (match d_dow d with [] => [] | n => n ++ bs ", " end) ++
  d_day d ++ bs " " ++ d_mon d ++ bs " " ++ d_year d ++ bs " " ++ d_hour d ++ bs ":" ++ d_min d ++
  (match d_sec d with [] => [] | n => bs ":" ++ n end) ++
  (match d_zone d with [] => [] | z => bs " " ++ z end).

(** ** The proleptic Gregorian calendar *)
Local Open Scope Z_scope.

Definition leap (y : Z) : bool :=
  (y mod 4 =? 0) && (negb (y mod 100 =? 0) || (y mod 400 =? 0)).

Definition month_length (y m : Z) : Z :=
  match m with
  | 1 => 31 | 2 => if leap y then 29 else 28 | 3 => 31 | 4 => 30 | 5 => 31 | 6 => 30
  | 7 => 31 | 8 => 31 | 9 => 30 | 10 => 31 | 11 => 30 | 12 => 31 | _ => 0
  end.

(** Days of the months 1 .. m-1 of year y. *)
Definition month_start (y m : Z) : Z :=
  fold_left Z.add (map (fun k => month_length y (Z.of_nat k)) (seq 1 (Z.to_nat m - 1))) 0.

(** Days from 0001-01-01 to the first day of year y. *)
Definition year_start (y : Z) : Z :=
  365 * (y - 1) + (y - 1) / 4 - (y - 1) / 100 + (y - 1) / 400.

(** Days from 1970-01-01 to day [d] (any integer, counting on from the first) of month [m] of year [y]. *)
Definition day_number (y m d : Z) : Z :=
  year_start y + month_start y m + (d - 1) - year_start 1970.

Definition valid_date (y m d : Z) : Prop := 1 <= m <= 12 /\ 1 <= d <= month_length y m.

(** ** Formatting *)
Definition pad2 (n : Z) : list rune := [Z.to_N (48 + n / 10); Z.to_N (48 + n mod 10)].
Definition pad4 (n : Z) : list rune := pad2 (n / 100) ++ pad2 (n mod 100).

Definition month_abbr (m : Z) : list rune :=
  nth (Z.to_nat (m - 1))
    [bs "Jan"; bs "Feb"; bs "Mar"; bs "Apr"; bs "May"; bs "Jun";
     bs "Jul"; bs "Aug"; bs "Sep"; bs "Oct"; bs "Nov"; bs "Dec"] [].

(** "Fri, 21 Nov 1997 09:55:06 -0600" (Go's time.RFC1123Z); [dow] is the day name. *)
Definition rfc1123z (dow : list rune) (y m d h mi s : Z) (west : bool) (zh zm : Z) : gostring :=
  dow ++ bs ", " ++ pad2 d ++ bs " " ++ month_abbr m ++ bs " " ++ pad4 y ++ bs " " ++
  pad2 h ++ bs ":" ++ pad2 mi ++ bs ":" ++ pad2 s ++ bs " " ++
  (if west then bs "-" else bs "+") ++ pad2 zh ++ pad2 zm.

(** A text that consists of white space and complete comments: deleting those from [p] followed by
    anything leaves what is left of the latter. *)
Definition blank (p : gostring) : Prop :=
  forall x, strip 0 (filter bmp (decode p) ++ x) = strip 0 x.

(** One of the seven day names, in any case. *)
Definition day_name (n : gostring) : Prop := In (to_lower n) day_names.
