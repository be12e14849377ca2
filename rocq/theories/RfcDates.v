(** What a date-time of RFC 5322 means, following the rules of Rfc5322.v; independent of the code.

    Section 3.3: the parts are numbers, and the zone is hours and minutes east of Greenwich.  Section 4.3:
    years of two and three digits, the alphabetic zones and the military zones.  Comments and folding
    white space mean nothing. *)
From Coq Require Import String List NArith ZArith Bool.
From Verif Require Import Lexer Utf8 Strs DateSpec AddrText EncText AcceptText Rfc5322.
Import ListNotations.
Local Open Scope text_scope.

(** the date and time of day in a zone, and the zone in seconds east of Greenwich *)
Record moment : Type := mkMoment { m_year : Z; m_month : Z; m_day : Z; m_hour : Z; m_minute : Z; m_second : Z; m_offset : Z }.

(** seconds since 1970-01-01 00:00:00 UTC *)
Definition instant (m : moment) : Z :=
  (86400 * day_number (m_year m) (m_month m) (m_day m) + 3600 * m_hour m + 60 * m_minute m + m_second m - m_offset m)%Z.

(** Section 3.3: "the day-of-month MUST be between 1 and the number of days allowed for the specified
    month (in the specified year); the time-of-day MUST be in the range 00:00:00 through 23:59:60 [...];
    and the last two digits of the zone MUST be within the range 00 through 59".  (Second 60 is for leap
    seconds; it is left out here.) *)
Definition valid_moment (m : moment) : Prop :=
  valid_date (m_year m) (m_month m) (m_day m) /\
  (0 <= m_hour m <= 23 /\ 0 <= m_minute m <= 59 /\ 0 <= m_second m <= 59)%Z.

(** Section 4.3: 00 to 49 are 2000 to 2049; 50 to 99, and years of three digits, are counted from 1900. *)
Definition rfc_year_value (v : list rune) : Z :=
  (if Nat.eqb (length v) 2 then if num v <=? 49 then 2000 + num v else 1900 + num v
   else if Nat.eqb (length v) 3 then 1900 + num v else num v)%Z.

(** Section 4.3: hours east of Greenwich *)
Definition rfc_zone_hours : list (list rune * Z) :=
  [(bs "ut", 0); (bs "gmt", 0); (bs "edt", -4); (bs "est", -5); (bs "cdt", -5); (bs "cst", -6); (bs "mdt", -6);
   (bs "mst", -7); (bs "pdt", -7); (bs "pst", -8)]%Z.

Definition rfc_months : list (list rune) :=
  [bs "jan"; bs "feb"; bs "mar"; bs "apr"; bs "may"; bs "jun"; bs "jul"; bs "aug"; bs "sep"; bs "oct"; bs "nov"; bs "dec"].

Section meaning.
  Variable on : form -> Prop.

  (** [x] is [v] with optional comments and white space around it *)
  Definition inside (x v : list rune) : Prop :=
    exists g g', x = g ++ v ++ g' /\ optional (CFWS on) g /\ optional (CFWS on) g'.

  Definition number_means (x : list rune) (n : Z) : Prop := exists v, inside x v /\ Forall is_dig v /\ n = num v.
  Definition year_means (x : list rune) (n : Z) : Prop := exists v, inside x v /\ Forall is_dig v /\ n = rfc_year_value v.
  Definition month_means (x : list rune) (n : Z) : Prop := exists k, nth_error rfc_months k = Some (to_lower x) /\ n = (Z.of_nat k + 1)%Z.

  Definition hours_minutes (h m : list rune) : Z := (3600 * num h + 60 * num m)%Z.

  Inductive zone_means : list rune -> Z -> Prop :=
  | zm_east : forall u h m, FWS on u -> two DIGIT h -> two DIGIT m -> zone_means (u ++ bs "+" ++ h ++ m) (hours_minutes h m)
  | zm_west : forall u h m, FWS on u -> two DIGIT h -> two DIGIT m -> zone_means (u ++ bs "-" ++ h ++ m) (- hours_minutes h m)
  | zm_name : forall x h, on O_zone -> In (to_lower x, h) rfc_zone_hours -> zone_means x (3600 * h)
  | zm_military : forall x, on O_military -> military_zone x -> zone_means x 0
  (* not in the standard *)
  | zm_unsigned : forall u h m, on X_no_sign -> FWS on u -> two DIGIT h -> two DIGIT m -> zone_means (u ++ h ++ m) (hours_minutes h m)
  | zm_UTC : forall x, on X_UTC -> to_lower x = bs "utc" -> zone_means x 0
  | zm_none : on X_no_zone -> zone_means [] 0.

  Inductive seconds_mean : list rune -> Z -> Prop :=
  | sm_none : seconds_mean [] 0
  | sm_some : forall x n, rfc_second on x -> number_means x n -> seconds_mean (bs ":" ++ x) n.

  Inductive date_time_means : list rune -> moment -> Prop :=
  | dt_means : forall w d mo y h mi s z g nd nmo ny nh nmi ns nz,
      optional (day_of_week on ;; lit ",") w ->
      rfc_day on d -> number_means d nd -> month_means mo nmo -> rfc_year on y -> year_means y ny ->
      rfc_hour on h -> number_means h nh -> rfc_minute on mi -> number_means mi nmi -> seconds_mean s ns ->
      zone_means z nz -> optional (CFWS on) g ->
      date_time_means (w ++ d ++ mo ++ y ++ h ++ bs ":" ++ mi ++ s ++ z ++ g) (mkMoment ny nmo nd nh nmi ns nz).
End meaning.
