(** Go's (Time).Format, which callers apply to what ParseDateTime returns: the elements of the layouts
    used for mail.  Transcribed from Go 1.14 src/time/format.go and time.go (not part of the
    repository).  Simplification: a layout is given as the list of its elements, as nextStdChunk would
    cut it, not as a string. *)
From Coq Require Import String List NArith ZArith Bool.
From Verif Require Import Lexer Utf8 Strs GoTime.
Import ListNotations.
Local Open Scope Z_scope.

(** (Time).Weekday: Sunday is 0 *)
(* /repo: Go time.go, absWeekday; applied to the result of parser.go:61 *)
Definition t_weekday (t : time) : Z := u64 (t_abs t + 86400) mod 604800 / 86400.

(** (Time).Zone: the name *)
(* /repo: zone.go:10-14, obs_zone.go:20-40: the name given to FixedZone *)
Definition t_zone_name (t : time) : gostring := match t_loc t with UTC => bs "UTC" | Fixed n _ => n end.

(** decimal digits of a number that is not negative; [k] bounds their number *)
(* /repo: Go format.go, appendInt; applied to the result of parser.go:61 *)
Fixpoint digits (k : nat) (n : Z) : gostring :=
  match k with
  | O => []
  | S k' => if n <? 10 then [Z.to_N (48 + n)] else digits k' (n / 10) ++ [Z.to_N (48 + n mod 10)]
  end.

(** format.go: appendInt *)
(* /repo: Go format.go, appendInt; applied to the result of parser.go:61 *)
Definition append_int (n : Z) (width : nat) : gostring :=
  let ds := digits 20 (Z.abs n) in
  (if n <? 0 then bs "-" else []) ++ repeat 48%N (width - length ds) ++ ds.

(** The elements of a layout: text, Mon, Jan, 02, 2, 2006, 15, 04, 05, -0700, MST. *)
(* /repo: Go format.go, the constants std...; applied to the result of parser.go:61 *)
Inductive chunk : Type :=
| CText (s : gostring) | CWeekday | CMonth | CZeroDay | CDay | CYear | CHour | CMinute | CSecond | CNumZone | CZone.

(* /repo: Go format.go, shortDayNames *)
Definition short_days : list gostring := [bs "Sun"; bs "Mon"; bs "Tue"; bs "Wed"; bs "Thu"; bs "Fri"; bs "Sat"].
(* /repo: Go format.go, shortMonthNames *)
Definition short_months : list gostring :=
  [bs "Jan"; bs "Feb"; bs "Mar"; bs "Apr"; bs "May"; bs "Jun"; bs "Jul"; bs "Aug"; bs "Sep"; bs "Oct"; bs "Nov"; bs "Dec"].

(** "-0700": the offset in whole minutes *)
(* /repo: Go format.go, AppendFormat, stdNumTZ *)
Definition num_zone (offset : Z) : gostring :=
  let zone := Z.quot offset 60 in
  (if zone <? 0 then bs "-" else bs "+") ++ append_int (Z.quot (Z.abs zone) 60) 2 ++ append_int (Z.rem (Z.abs zone) 60) 2.

(* /repo: Go format.go, AppendFormat: the loop body *)
Definition format_chunk (t : time) (c : chunk) : gostring :=
  let '(year, month, day) := t_date t in
  let '(hour, min, sec) := t_clock t in
  match c with
  | CText s => s
  | CWeekday => nth (Z.to_nat (t_weekday t)) short_days []
  | CMonth => nth (Z.to_nat (month - 1)) short_months []
  | CZeroDay => append_int day 2
  | CDay => append_int day 0
  | CYear => append_int year 4
  | CHour => append_int hour 2
  | CMinute => append_int min 2
  | CSecond => append_int sec 2
  | CNumZone => num_zone (t_zone_offset t)
  | CZone => match t_zone_name t with [] => num_zone (t_zone_offset t) | n => n end
  end.

(** (Time).Format *)
(* /repo: applied to the result of parser.go:61 *)
Definition go_format (layout : list chunk) (t : time) : gostring := flat_map (format_chunk t) layout.

(** time.RFC1123, "Mon, 02 Jan 2006 15:04:05 MST" *)
(* /repo: Go format.go *)
Definition RFC1123 : list chunk :=
  [CWeekday; CText (bs ", "); CZeroDay; CText (bs " "); CMonth; CText (bs " "); CYear; CText (bs " "); CHour; CText (bs ":");
   CMinute; CText (bs ":"); CSecond; CText (bs " "); CZone].
(** time.RFC1123Z, "Mon, 02 Jan 2006 15:04:05 -0700" *)
(* /repo: Go format.go *)
Definition RFC1123Z : list chunk :=
  [CWeekday; CText (bs ", "); CZeroDay; CText (bs " "); CMonth; CText (bs " "); CYear; CText (bs " "); CHour; CText (bs ":");
   CMinute; CText (bs ":"); CSecond; CText (bs " "); CNumZone].
(** "Mon, 2 Jan 2006 15:04:05 -0700", the form of RFC 5322 *)
(* /repo: a layout in use, not a constant of package time *)
Definition mail_layout : list chunk :=
  [CWeekday; CText (bs ", "); CDay; CText (bs " "); CMonth; CText (bs " "); CYear; CText (bs " "); CHour; CText (bs ":");
   CMinute; CText (bs ":"); CSecond; CText (bs " "); CNumZone].
