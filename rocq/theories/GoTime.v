(** The part of Go's package time the repository uses: time.Date and time.FixedZone
    (/repo/date_time.go:56, zone.go:14, obs_zone.go:20-40), time.ParseDuration
    (/repo/offset.go:30), and the accessors a caller uses to read the result.  Transcribed from
    Go 1.14 src/time/time.go, format.go (not part of the repository).  uint64 and int64
    arithmetic is modelled with its wrap-around where it can occur. *)
From Coq Require Import String List NArith ZArith Bool.
From Verif Require Import Lexer Utf8 Strs.
Import ListNotations.
Local Open Scope Z_scope.

(** *time.Location: time.UTC or the result of time.FixedZone(name, offset). *)
(* /repo: zone.go:10-14, obs_zone.go:12-40 *)
Inductive location : Type :=
| UTC
| Fixed (name : gostring) (offset : Z).

(* /repo: zone.go:14: the offset given to FixedZone *)
Definition loc_offset (l : location) : Z := match l with UTC => 0 | Fixed _ o => o end.

(** time.Time without monotonic clock and nanoseconds (the package always passes nsec = 0):
    seconds since 1970-01-01 UTC, and the location. *)
(* /repo: date_time.go:56 *)
Record time : Type := mkTime { t_unix : Z; t_loc : location }.

(* /repo: Go: 2^64 *)
Definition two64 : Z := 18446744073709551616.
(* /repo: Go: 2^63 *)
Definition two63 : Z := 9223372036854775808.
(** conversion to uint64 and int64 *)
(* /repo: Go: uint64(x) *)
Definition u64 (x : Z) : Z := x mod two64.
(* /repo: Go: int64(x) *)
Definition i64 (x : Z) : Z := (x + two63) mod two64 - two63.

(** time.go: constants *)
Definition seconds_per_day : Z := 86400.
(* /repo: Go time.go, constant of the same name; used by date_time.go:56 *)
Definition days_per_400_years : Z := 146097.
(* /repo: Go time.go, constant of the same name; used by date_time.go:56 *)
Definition days_per_100_years : Z := 36524.
(* /repo: Go time.go, constant of the same name; used by date_time.go:56 *)
Definition days_per_4_years : Z := 1461.
(* /repo: Go time.go, constant of the same name; used by date_time.go:56 *)
Definition absolute_zero_year : Z := -292277022399.
(* (absoluteZeroYear - internalYear) * 365.2425 * secondsPerDay, internalYear = 1 *)
(* /repo: Go time.go, constant of the same name; used by date_time.go:56 *)
Definition absolute_to_internal : Z := -292277022400 * 31556952.
(* -(1969*365 + 1969/4 - 1969/100 + 1969/400) * secondsPerDay *)
(* /repo: Go time.go, constant of the same name; used by date_time.go:56 *)
Definition internal_to_unix : Z := - (1969 * 365 + 1969 / 4 - 1969 / 100 + 1969 / 400) * 86400.
(* /repo: Go time.go, constant of the same name; used by date_time.go:56 *)
Definition unix_to_internal : Z := - internal_to_unix.
(* /repo: Go time.go, constant of the same name; used by date_time.go:56 *)
Definition internal_to_absolute : Z := - absolute_to_internal.

(** the zero value time.Time{}: January 1, year 1, 00:00:00 UTC *)
(* /repo: parser.go:44 and :56 *)
Definition zero_time : time := mkTime internal_to_unix UTC.

(** time.go: isLeap *)
Definition is_leap (y : Z) : bool :=
  (Z.rem y 4 =? 0) && (negb (Z.rem y 100 =? 0) || (Z.rem y 400 =? 0)).

(** time.go: daysBefore *)
Definition days_before (m : Z) : Z :=
  nth (Z.to_nat m) [0; 31; 59; 90; 120; 151; 181; 212; 243; 273; 304; 334; 365] 0.

(** time.go: norm *)
Definition norm (hi lo base : Z) : Z * Z :=
  let '(hi, lo) :=
    if lo <? 0 then let n := Z.quot (- lo - 1) base + 1 in (hi - n, lo + n * base)
    else (hi, lo) in
  if base <=? lo then let n := Z.quot lo base in (hi + n, lo - n * base) else (hi, lo).

(** time.go: daysSinceEpoch *)
Definition days_since_epoch (year : Z) : Z :=
  let y := u64 (year - absolute_zero_year) in
  let n := y / 400 in
  let y := y - 400 * n in
  let d := days_per_400_years * n in
  let n := y / 100 in
  let y := y - 100 * n in
  let d := d + days_per_100_years * n in
  let n := y / 4 in
  let y := y - 4 * n in
  let d := d + days_per_4_years * n in
  let n := y in
  u64 (d + 365 * n).

(** time.go: Date, with nsec = 0 *)
Definition go_date (year month day hour min sec : Z) (loc : location) : time :=
  let m := month - 1 in
  let '(year, m) := norm year m 12 in
  let month := m + 1 in
  let '(min, sec) := norm min sec 60 in
  let '(hour, min) := norm hour min 60 in
  let '(day, hour) := norm day hour 24 in
  let d := days_since_epoch year in
  let d := u64 (d + days_before (month - 1)) in
  let d := if is_leap year && (3 <=? month) then u64 (d + 1) else d in
  let d := u64 (d + u64 (day - 1)) in
  let abs := u64 (d * seconds_per_day) in
  let abs := u64 (abs + u64 (hour * 3600 + min * 60 + sec)) in
  let unix := i64 (i64 abs + (absolute_to_internal + internal_to_unix)) in
  let unix := i64 (unix - loc_offset loc) in
  mkTime unix loc.

(** Accessors: Time.abs, absDate, absClock (time.go), for (Time).Date, Clock and Zone. *)
Definition t_abs (t : time) : Z :=
  u64 (t_unix t + loc_offset (t_loc t) + (unix_to_internal + internal_to_absolute)).

(* /repo: Go time.go, absDate: year and day of the year; what a caller of parser.go:61 reads *)
Definition abs_year_yday (abs : Z) : Z * Z :=
  let d := abs / seconds_per_day in
  let n := d / days_per_400_years in
  let y := 400 * n in
  let d := d - days_per_400_years * n in
  let n := d / days_per_100_years in
  let n := n - n / 4 in               (* n -= n >> 2 *)
  let y := y + 100 * n in
  let d := d - days_per_100_years * n in
  let n := d / days_per_4_years in
  let y := y + 4 * n in
  let d := d - days_per_4_years * n in
  let n := d / 365 in
  let n := n - n / 4 in
  let y := y + n in
  let d := d - 365 * n in
  (i64 (i64 y + absolute_zero_year), d).

(** month and day from the day of the year *)
(* /repo: Go time.go, absDate *)
Definition month_day (year yday : Z) : Z * Z :=
  let day := yday in
  let fin (day : Z) :=
    let month := day / 31 in
    let end_ := days_before (month + 1) in
    if end_ <=? day then (month + 1 + 1, day - end_ + 1)
    else (month + 1, day - days_before month + 1) in
  if is_leap year then
    if 31 + 29 - 1 <? day then fin (day - 1)
    else if day =? 31 + 29 - 1 then (2, 29)
    else fin day
  else fin day.

(** (Time).Date *)
(* /repo: read by a caller of parser.go:61 *)
Definition t_date (t : time) : Z * Z * Z :=
  let '(y, yd) := abs_year_yday (t_abs t) in
  let '(m, d) := month_day y yd in (y, m, d).

(** (Time).Clock *)
(* /repo: read by a caller of parser.go:61 *)
Definition t_clock (t : time) : Z * Z * Z :=
  let s := t_abs t mod seconds_per_day in
  (s / 3600, s mod 3600 / 60, s mod 60).

(** (Time).Zone: the offset part *)
(* /repo: read by a caller of parser.go:61 *)
Definition t_zone_offset (t : time) : Z := loc_offset (t_loc t).

(** format.go: ParseDuration, in nanoseconds; None for an error.  Simplifications: no
    fractional part ('.') and no overflow test; offset.go:30 passes "[+-]DDhDDm". *)
Fixpoint leading_int (acc : Z) (s : gostring) : Z * gostring :=
  match s with
  | c :: s' => if is_digit c then leading_int (acc * 10 + (Z.of_N c - 48)) s' else (acc, s)
  | [] => (acc, s)
  end.

(* /repo: Go format.go, ParseDuration: the unit; offset.go:30 *)
Fixpoint leading_unit (s : gostring) : gostring * gostring :=
  match s with
  | c :: s' =>
      if is_digit c || (c =? 46)%N then ([], s)
      else let '(u, r) := leading_unit s' in (c :: u, r)
  | [] => ([], [])
  end.

(* /repo: Go format.go, unitMap; offset.go:30 *)
Definition unit_ns (u : gostring) : option Z :=
  if eqb_str u (bs "ns") then Some 1
  else if eqb_str u (bs "us") then Some 1000
  else if eqb_str u (bs "ms") then Some 1000000
  else if eqb_str u (bs "s") then Some 1000000000
  else if eqb_str u (bs "m") then Some 60000000000
  else if eqb_str u (bs "h") then Some 3600000000000
  else None.

(* /repo: Go format.go, ParseDuration: the loop; offset.go:30 *)
Fixpoint duration_loop (n : nat) (acc : Z) (s : gostring) : option Z :=
  match n with
  | O => None
  | S n' =>
      match s with
      | [] => Some acc
      | c :: _ =>
          if is_digit c then
            let '(v, s1) := leading_int 0 s in
            let '(u, s2) := leading_unit s1 in
            match unit_ns u with
            | Some k => duration_loop n' (acc + v * k) s2
            | None => None
            end
          else None
      end
  end.

(* /repo: Go format.go, ParseDuration; offset.go:30 *)
Definition parse_duration (s : gostring) : option Z :=
  let '(neg, s) :=
    match s with
    | c :: s' => if (c =? 45)%N then (true, s') else if (c =? 43)%N then (false, s') else (false, s)
    | [] => (false, s)
    end in
  if eqb_str s (bs "0") then Some 0
  else match s with
       | [] => None
       | _ => match duration_loop (S (length s)) 0 s with
              | Some d => Some (if neg then - d else d)
              | None => None
              end
       end.

(** int(dur.Seconds()): exact for whole seconds *)
(* /repo: offset.go:37 *)
Definition duration_seconds (d : Z) : Z := Z.quot d 1000000000.
