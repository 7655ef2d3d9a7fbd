(** * CalendarProps: C15, C16 *)
From Coq Require Import ZArith Lia Bool.
From Verif Require Import PyBase CalendarModel CalendarSpec CalendarProofs CalendarDays CalendarTime.
Open Scope Z_scope.

(** ** C15: calendar_to_jd counts days.
    [cal_day g c] is the integer [n] with calendar_to_jd(c at 0h) = n - 1/2; at
    noon (no time given) the Julian Date is [n] itself. *)
Theorem C15_gregorian : 
  (forall c, -4715 <= yr c -> valid leap_gregorian c -> cal_day GTrue (next_day leap_gregorian c) = cal_day GTrue c + 1) /\
  cal_day GTrue (Date 2000 1 1) = 2451545.
Proof. split; [|reflexivity]. intros [y m d]. apply cal_day_next_g. Qed.
Print Assumptions C15_gregorian.
Theorem C15_julian : 
  (forall c, -4715 <= yr c -> valid leap_julian c -> cal_day GFalse (next_day leap_julian c) = cal_day GFalse c + 1) /\
  cal_day GFalse (Date (-4712) 1 1) = 0.
Proof. split; [|reflexivity]. intros [y m d]. apply cal_day_next_j. Qed.
Print Assumptions C15_julian.

(** The time of day is added to it, with an error of at most 1.5 units in the last
    place (61 microseconds); microseconds of the input are ignored. *)
Theorem C15_time_of_day : forall g c t, valid_clock t ->
  Z.abs ((cal_to_jd g c t + 2 ^ 30) * 86400 - (cal_day g c * 86400 + seconds t) * G) <= 129600.
Proof. exact cal_to_jd_err. Qed.
Print Assumptions C15_time_of_day.

Example C15_ex : valid leap_gregorian (Date 2000 2 29) /\ next_day leap_gregorian (Date 2000 2 29) = Date 2000 3 1 /\
  ~ valid leap_gregorian (Date 1900 2 29) /\ valid leap_julian (Date 1900 2 29) /\
  cal_day GTrue (Date 2010 1 1) = 2455198 /\ cal_day GTrue (Date 1858 11 17) = 2400001.
Proof. unfold valid. repeat split; cbn; try lia. Qed.

(** Documented: None switches at October 4/15, 1582.  The code tests year, month
    and day independently: 2000-01-01 is taken as a Julian date, 13 days off. *)
Theorem C15_gregorian_none_refuted : 
  cal_day GNone (Date 2000 1 1) = cal_day GTrue (Date 2000 1 1) + 13 /\ cal_day GNone (Date 2000 12 3) = cal_day GTrue (Date 2000 12 3) + 13.
Proof. split; reflexivity. Qed.
(** Microseconds are dropped. *)
Theorem C15_microseconds_refuted : forall g c h m s u u', cal_to_jd g c (Clock h m s u) = cal_to_jd g c (Clock h m s u').
Proof. reflexivity. Qed.
(** int64 arrays given by the caller for year and month are overwritten. *)
Theorem C15_overwrites_arguments_refuted : caller_arrays_after true 2000 1 = (1999, 13).
Proof. reflexivity. Qed.
(** Years before -4715 are truncated towards zero instead of down. *)
Theorem C15_early_years_refuted : exists c, valid leap_julian c /\ cal_day GFalse (next_day leap_julian c) <> cal_day GFalse c + 1.
Proof. exists (Date (-4716) 2 29). unfold valid. split; cbn; lia. Qed.

(** ** C16: jd_to_calendar is the inverse *)
(** same calendar *)
Theorem C16_date_to_day_to_date : 
  (forall c, valid leap_gregorian c -> 301 <= yr c \/ (yr c = 300 /\ 3 <= mon c) -> jd_date GTrue (cal_day GTrue c) = c) /\
  (forall c, valid leap_julian c -> -4715 <= yr c -> jd_date GFalse (cal_day GFalse c) = c).
Proof. split; [exact roundtrip_g|exact roundtrip_j]. Qed.
Print Assumptions C16_date_to_day_to_date.
Theorem C16_day_to_date_to_day : 
  (forall z, 1830692 <= z -> valid leap_gregorian (jd_date GTrue z) /\ cal_day GTrue (jd_date GTrue z) = z) /\
  (forall z, 0 <= z -> valid leap_julian (jd_date GFalse z) /\ cal_day GFalse (jd_date GFalse z) = z).
Proof.
  split; intros z H.
  - destruct (inv_g z H) as (c & -> & ? & _ & ?). auto.
  - destruct (inv_j z ltac:(lia)) as (c & -> & ? & _ & ?). auto.
Qed.
Print Assumptions C16_day_to_date_to_day.
(** the default (None) follows the historical calendar from JD 0 = -4712-01-01 on *)
Theorem C16_historical : jd_date GNone 0 = Date (-4712) 1 1 /\
  forall z, 0 <= z -> jd_date GNone (z + 1) = next_day_mixed (jd_date GNone z).
Proof. split; [reflexivity|]. intros z H. apply succ_mixed. lia. Qed.
Print Assumptions C16_historical.
(** From 1582-10-15 on the two defaults (calendar_to_jd: True, jd_to_calendar: None) agree. *)
Theorem C16_defaults : forall c, valid leap_gregorian c -> 1582 < yr c \/ (yr c = 1582 /\ (10 < mon c \/ (mon c = 10 /\ 15 <= dy c))) ->
  jd_date GNone (cal_day GTrue c) = c.
Proof.
  intros [y m d] Hv Hy. cbn [yr mon dy] in Hy. rewrite none_hi.
  - apply roundtrip_g; auto. unfold after300. cbn. lia.
  - destruct Hv as (Hm & Hd). cbn [yr mon dy] in *. unfold cal_day, gregoffset, shift_ym. cbn [yr mon dy].
    destruct (month_cases _ Hm) as [E|[E|[E|[E|[E|[E|[E|[E|[E|[E|[E|E]]]]]]]]]]]; subst m;
    repeat match goal with |- context [Z.ltb ?a ?b] => let v := eval cbv in (Z.ltb a b) in change (Z.ltb a b) with v; cbv iota end; zdiv.
Qed.
Print Assumptions C16_defaults.

(** *** Times.  [k] is a Julian Date in units of 2^-31 days (see CalendarModel), so that
    [(k + 2^30) * 86400 / G] is the exact time in seconds from 0h of day 0. *)
(** rounding=0: the microsecond below the exact time (up to 2^-17 microseconds of product rounding). *)
Theorem C16_no_rounding : forall g r k, r <= 0 -> exists z t, jd_to_cal g r k = Ok (jd_date g z, t) /\ valid_clock t /\
  (z * 86400000000 + microseconds t) * 2 ^ 18 - 2 <= (k + 2 ^ 30) * 10546875 < (z * 86400000000 + microseconds t + 1) * 2 ^ 18 + 2.
Proof. exact zero_spec. Qed.
Print Assumptions C16_no_rounding.
(** 0 < rounding < 1 second: within 22 microseconds of the exact time, or a whole second
    within rounding + 22 microseconds of it. *)
Theorem C16_rounding : forall g r k, 0 < r < 1000000 -> exists z t, jd_to_cal g r k = Ok (jd_date g z, t) /\ valid_clock t /\
  (Z.abs ((z * 86400000000 + microseconds t) * 2 ^ 18 - (k + 2 ^ 30) * 10546875) <= 22 * 2 ^ 18 \/
   (usec t = 0 /\ Z.abs ((z * 86400000000 + microseconds t) * 2 ^ 18 - (k + 2 ^ 30) * 10546875) <= (r + 22) * 2 ^ 18)).
Proof. exact snap_spec. Qed.
Print Assumptions C16_rounding.
(** the default, one second: the first whole second at or after the exact time (less 5.5 microseconds). *)
Theorem C16_default_rounds_up : forall g k, exists z t, jd_to_cal g 1000000 k = Ok (jd_date g z, t) /\ valid_clock t /\ usec t = 0 /\
  (z * 86400 + seconds t - 1) * G + 11648 <= (k + 2 ^ 30) * 86400 < (z * 86400 + seconds t) * G + 11648.
Proof. exact default_spec. Qed.
Print Assumptions C16_default_rounds_up.
Theorem C16_rounding_too_large : forall g r k, 1000000 < r -> jd_to_cal g r k = Raise ValueError.
Proof. intros g r k H. unfold jd_to_cal. rewrite Z.gtb_ltb. destruct (Z.ltb_spec 1000000 r); [reflexivity|lia]. Qed.
(** Round trip of date and time, exact to the second, for rounding between 100 and 999900 microseconds. *)
Theorem C16_round_trip : forall r c t, 100 <= r <= 999900 -> valid_clock t -> usec t = 0 -> valid leap_gregorian c ->
  1582 < yr c \/ (yr c = 1582 /\ (10 < mon c \/ (mon c = 10 /\ 15 <= dy c))) ->
  jd_to_cal GNone r (cal_to_jd GTrue c t) = Ok (c, t).
Proof. intros r c t Hr V U Hv Hc. rewrite (roundtrip_time GTrue GNone); auto. now rewrite C16_defaults. Qed.
Print Assumptions C16_round_trip.
(** With the default rounding it is the same second or the next one. *)
Theorem C16_round_trip_default : forall g g' c t, valid_clock t -> usec t = 0 -> exists z t',
  jd_to_cal g' 1000000 (cal_to_jd g c t) = Ok (jd_date g' z, t') /\ valid_clock t' /\ usec t' = 0 /\
  0 <= (z * 86400 + seconds t') - (cal_day g c * 86400 + seconds t) <= 1.
Proof. exact roundtrip_default. Qed.
Print Assumptions C16_round_trip_default.

Example C16_ex : jd_date GNone 2299160 = Date 1582 10 4 /\ jd_date GNone 2299161 = Date 1582 10 15 /\
  jd_to_cal GNone 1000 (cal_to_jd GTrue (Date 2011 3 31) (Clock 8 0 0 0)) = Ok (Date 2011 3 31, Clock 8 0 0 0) /\
  jd_to_cal GNone 0 (cal_to_jd GTrue (Date 2011 3 31) (Clock 8 0 0 0)) = Ok (Date 2011 3 31, Clock 8 0 0 13) /\
  2 ^ 21 * G <= cal_to_jd GTrue (Date 2011 3 31) (Clock 8 0 0 0) < 2 ^ 22 * G.
Proof. vm_compute. repeat split; congruence. Qed.

(** Documented: with the default rounding the result is rounded to the nearest second.
    08:00:00 comes back as 08:00:01. *)
Theorem C16_default_round_trip_refuted :
  jd_to_cal GNone 1000000 (cal_to_jd GTrue (Date 2000 1 1) (Clock 8 0 0 0)) = Ok (Date 2000 1 1, Clock 8 0 1 0).
Proof. vm_compute. reflexivity. Qed.
(** Gregorian dates before 300-03-01 are wrong (truncation towards zero). *)
Theorem C16_early_gregorian_refuted : exists c, valid leap_gregorian c /\ jd_date GTrue (cal_day GTrue c) <> c.
Proof. exists (Date 300 2 28). unfold valid. split; [cbn; lia|vm_compute; congruence]. Qed.
(** Documented: None (assumed switch-over) is the default of jd_to_calendar, True the one of
    calendar_to_jd: before the reform the defaults do not round trip. *)
Theorem C16_defaults_differ_refuted : jd_date GNone (cal_day GTrue (Date 1500 1 1)) = Date 1499 12 23.
Proof. reflexivity. Qed.
(** The documented output 'fracarray' fails when rounding is off. *)
Theorem C16_fracarray_refuted : forall g k, jd_to_fracarray g 0 k = Raise NameError.
Proof. reflexivity. Qed.
