(** * CalendarSpec: civil calendars as successions of days, independent of the model's formulas *)
From Coq Require Import ZArith Bool.
From Verif Require Import CalendarModel.
Open Scope Z_scope.

(** Leap years of the two calendars (astronomical year numbering). *)
Definition leap_gregorian (y : Z) : bool := (y mod 4 =? 0) && (negb (y mod 100 =? 0) || (y mod 400 =? 0)).
Definition leap_julian (y : Z) : bool := y mod 4 =? 0.
Definition month_length (leap : Z -> bool) (y m : Z) : Z :=
  match m with
  | 1 => 31 | 2 => if leap y then 29 else 28 | 3 => 31 | 4 => 30 | 5 => 31 | 6 => 30
  | 7 => 31 | 8 => 31 | 9 => 30 | 10 => 31 | 11 => 30 | 12 => 31 | _ => 0
  end.
Definition valid (leap : Z -> bool) (c : date) : Prop := 1 <= mon c <= 12 /\ 1 <= dy c <= month_length leap (yr c) (mon c).
(** The day after. *)
Definition next_day (leap : Z -> bool) (c : date) : date :=
  if dy c <? month_length leap (yr c) (mon c) then Date (yr c) (mon c) (dy c + 1)
  else if mon c <? 12 then Date (yr c) (mon c + 1) 1
  else Date (yr c + 1) 1 1.
(** The historical calendar: Julian up to 1582-10-04, followed by 1582-10-15 Gregorian. *)
Definition next_day_mixed (c : date) : date :=
  match c with
  | Date 1582 10 4 => Date 1582 10 15
  | _ => if (yr c <? 1582) || ((yr c =? 1582) && (mon c <? 10)) || ((yr c =? 1582) && (mon c =? 10) && (dy c <? 4))
         then next_day leap_julian c else next_day leap_gregorian c
  end.
(** A time of day without fraction of a second, in seconds. *)
Definition valid_clock (t : clock) : Prop := 0 <= hour t < 24 /\ 0 <= minute t < 60 /\ 0 <= second t < 60 /\ 0 <= usec t < 1000000.
Definition seconds (t : clock) : Z := hour t * 3600 + minute t * 60 + second t.
Definition microseconds (t : clock) : Z := seconds t * 1000000 + usec t.
