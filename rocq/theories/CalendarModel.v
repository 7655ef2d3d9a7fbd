(** * CalendarModel: jd_to_calendar and calendar_to_jd (astropysics/obstools.py 105-461)

    Numpy element-wise code is modelled per element.  Day arithmetic is exact:
    every float expression there ([365.25*c], [30.6001*e], [(b-122.1)/365.25],
    [(z-1867216.25)/36524.25]) is at least 1e-5 away from an integer or an exactly
    represented integer, so binary64 truncation gives the exact rational truncation.
    [.astype(int)] truncates towards zero: [Z.quot].  Python [//] is [Z.div].

    Times are binary64.  A Julian Date [2^21 <= jd < 2^22] (years 1029 to 6771) is a
    multiple of 2^-31 days, and is modelled by the integer [k = jd * 2^31]; sums are
    rounded to that grid, to nearest even ([rne]).  Not modelled: the additional
    2^-54 relative rounding of the small constants [hr/24.0] etc. before the sum. *)
From Coq Require Import ZArith Bool.
From Verif Require Import PyBase.
Open Scope Z_scope.

Record date := Date { yr : Z; mon : Z; dy : Z }.
Record clock := Clock { hour : Z; minute : Z; second : Z; usec : Z }.

(** The [gregorian] argument: True, False, None.  (calendar_to_jd also takes a
    tuple and jd_to_calendar a day number; None stands for (1582,10,4) and 2299161.) *)
Inductive greg := GTrue | GFalse | GNone.

(** ** calendar_to_jd, obstools.py 429-450.
    The result is the integer [n] with JD(0h of the date) = n - 1/2. *)
Definition shift_ym (y m : Z) : Z * Z := if m <? 3 then (y - 1, m + 12) else (y, m). (* 429-431 *)
Definition gregoffset (g : greg) (y m d : Z) : Z := (* 433-444; on the shifted year and month *)
  let cen := y / 100 in
  match g with
  | GTrue => 2 - cen + cen / 4
  | GFalse => 0
  | GNone => if (y >? 1582) && (m >? 10) && (d >? 4) then 2 - cen + cen / 4 else 0
  end.
Definition cal_day (g : greg) (c : date) : Z :=
  let (y, m) := shift_ym (yr c) (mon c) in
  Z.quot (1461 * (y + 4716)) 4 + Z.quot (306001 * (m + 1)) 10000 + dy c + gregoffset g y m (dy c) - 1524.

(** ** jd_to_calendar, obstools.py 199-225: the date of day [z] (the integer [floor(jd+1/2)]). *)
Definition to_julian (g : greg) (z : Z) : Z :=
  let alpha := Z.quot (4 * z - 7468865) 146097 in
  let z' := z + (1 + alpha - alpha / 4) in
  match g with GTrue => z' | GFalse => z | GNone => if z >=? 2299161 then z' else z end.
Definition jd_date (g : greg) (z : Z) : date :=
  let b := to_julian g z + 1524 in
  let c := Z.quot (100 * b - 12210) 36525 in
  let d := Z.quot (1461 * c) 4 in
  let e := Z.quot (10000 * (b - d)) 306001 in
  let day := b - d - Z.quot (306001 * e) 10000 in
  let month := if e <? 14 then e - 1 else e - 13 in
  let year := if month >? 2 then c - 4716 else c - 4715 in
  Date year month day.

(** ** Times on the binary64 grid *)
Definition G := 2 ^ 31.
(** round [n/d] to the nearest integer, ties to even *)
Definition rne (n d : Z) : Z :=
  let q := n / d in let r := n mod d in
  if 2 * r <? d then q else if 2 * r >? d then q + 1 else if Z.even q then q else q + 1.
(** round the non-negative integer [p < 2^55] to 53 significant bits *)
Definition round53 (p : Z) : Z :=
  if p <? 2 ^ 53 then p else if p <? 2 ^ 54 then 2 * rne p 2 else 4 * rne p 4.

(** calendar_to_jd 447-450 with integer hours, minutes and seconds; microseconds
    are never used.  Each quotient is added and rounded to the grid in turn. *)
Definition cal_to_jd (g : greg) (c : date) (t : clock) : Z :=
  let k0 := cal_day g c * G - 2 ^ 30 in
  k0 + rne (hour t * G) 24 + rne (minute t * G) 1440 + rne (second t * G) 86400.

(** jd_to_calendar 181-272, output 'datetime' or 'array', for one JD.
    [rounding] in microseconds (an integer). *)
Definition hms (s u : Z) : clock :=
  let m := s / 60 in Clock ((m / 60) mod 24) ((m - 60 * (m / 60)) mod 60) ((s - 60 * m) mod 60) u.
Definition jd_to_cal (g : greg) (rounding : Z) (k : Z) : @res (date * clock) :=
  if rounding >? 1000000 then Raise ValueError else
  let k' := k + 2 ^ 30 + (if rounding <=? 0 then 0 else rne (rounding * G) 86400000000) in
  let z := k' / G in
  let dec := k' mod G in
  let c := jd_date g z in
  if rounding =? 1000000 then Ok (c, hms (dec * 86400 / G) 0)
  else
    let us := round53 (dec * 10546875) / 2 ^ 18 in (* dec*86400e6 = dec_k * 10546875 / 2^18, 242 *)
    let us' := if rounding >? 0 then
                 let div := us / 1000000 * 1000000 in
                 (if us - div <? 2 * rounding then div + rounding else us) - rounding
               else us in
    Ok (c, hms (us' / 1000000) (us' - 1000000 * (us' / 1000000))).

(** The [fracarray] output, 227-230: [roundingfrac] is unbound (UnboundLocalError,
    a NameError) when rounding <= 0. *)
Definition jd_to_fracarray (g : greg) (rounding : Z) (k : Z) : @res (date * Z) :=
  if rounding >? 1000000 then Raise ValueError else
  if rounding <=? 0 then Raise NameError else
  let rf := rne (rounding * G) 86400000000 in
  let k' := k + 2 ^ 30 + rf in
  Ok (jd_date g (k' / G), Z.max 0 (k' mod G - rf)).

(** Arguments given as int64 arrays are not copied (np.array(copy=False).ravel(), 392-393),
    so the shift of 429-431 is made in the caller's arrays: the caller's year and month
    after the call. *)
Definition caller_arrays_after (int64_array : bool) (y m : Z) : Z * Z :=
  if int64_array then shift_ym y m else (y, m).
