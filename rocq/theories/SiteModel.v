(** * SiteModel: an observing site (astropysics/obstools.py 685-1278): sidereal and civil time, horizontal coordinates, rise, set and transit.
    Numbers are exact reals.  A [datetime] is the number of microseconds (Z) since midnight of day 0; [lst0 d] is what localSiderialTime
    returns for midnight of date [d] (greenwich_sidereal_time is in FuncsModel.v), [off] the site's offset from UTC in hours, which is
    taken to be the same on all dates (no daylight saving). *)
From Coq Require Import Reals ZArith List Bool.
From Verif Require Import PyBase RealTrig.
Import ListNotations.
Open Scope R_scope.

(** 875: [(greenwich_sidereal_time(jd,apparent) + self._long.d/15)%24.0] *)
Definition localSiderialTime (gst longdeg : R) : R := pymod (gst + longdeg / 15) 24.
(** 893-910 returntype 'string' and 'datetime': (hours, minutes, seconds) and (.., seconds, microseconds) *)
Definition hms_fields (lst : R) : Z * Z * R :=
  let hr := pyint lst in let mn := 60 * (lst - IZR hr) in let sec := 60 * (mn - IZR (pyint mn)) in (hr, pyint mn, sec).
Definition hms_time (lst : R) : Z * Z * Z * Z :=
  let '(h, m, s) := hms_fields lst in let msec := pyint (1000000 * (s - IZR (pyint s))) in (h, m, pyint s, msec).

(** localTime 913-1011 for a scalar [lst] and one date, returntype None.  [apparent] is not used (971 does not pass it on) *)
Definition sdk : R := 10027378507871321 / 10000000000000000.
Definition localTime (lst lst0 off : R) (apparent utc : bool) : R :=
  let h := pymod (lst - lst0) 24 / sdk in
  if utc then pymod (h - off) 24 else h.
(** 976: the date correction of returntype 'datetime' *)
Definition dayoff (lst lst0 : R) : Z := pyint ((lst - lst0) / 24).
(** 952-956: a datetime.datetime argument: [lsts = datetime.time()] replaces it by midnight *)
Definition localTime_datetime (hours lst0 off : R) (apparent utc : bool) : R := localTime 0 lst0 off apparent utc.

(** equatorialToHorizontal 1014-1083 without errors: [lat] degrees, [ra] hours, [dec] degrees, result (alt, az) in degrees *)
Definition equatorialToHorizontal (lat ra dec lst : R) : R * R :=
  let HA := lst - ra in
  let sHA := sin (PI * HA / 12) in let cHA := cos (PI * HA / 12) in
  let sdec := sin (rad dec) in let cdec := cos (rad dec) in
  let slat := sin (rad lat) in let clat := cos (rad lat) in
  let alts := asin (slat * sdec + clat * cdec * cHA) in
  let azs := pymod (atan2 (- cdec * sHA) (clat * sdec - slat * cdec * cHA)) (2 * PI) in
  (deg alts, deg azs).

(** riseSetTransit 1085-1159, timeobj=False.  The division is by cos(lat)cos(dec), not 0 away from the poles *)
Definition coslha (lat dec alt : R) : R := (sin (rad alt) - sin (rad lat) * sin (rad dec)) / (cos (rad lat) * cos (rad dec)).
Definition lha (lat dec alt : R) : R := acos (coslha lat dec alt) * 12 / PI / sdk.
Definition riseSetTransit (lat ra dec lst0 off alt : R) (utc : bool) : option R * option R * option R :=
  let transit := localTime ra lst0 off true utc in
  let c := coslha lat dec alt in
  if Rlt_dec c (-1) then (None, None, Some transit)
  else if Rlt_dec 1 c then (None, None, None)
  else let l := lha lat dec alt in (Some (pymod (transit - l) 24), Some (pymod (transit + l) 24), Some transit).
(** 1131-1143: hour, minute, second and microsecond by repeated floor, combined with the date *)
Definition hour_us : Z := 3600000000.
Definition day_us : Z := 24 * hour_us.
Definition hrtodatetime (date : Z) (t : R) : Z :=
  let hr := rfloor t in let t1 := (t - IZR hr) * 60 in
  let mn := rfloor t1 in let t2 := (t1 - IZR mn) * 60 in
  let sec := rfloor t2 in let t3 := (t2 - IZR sec) * 1000000 in
  let msec := rfloor t3 in
  (date * day_us + hr * hour_us + mn * 60000000 + sec * 1000000 + msec)%Z.
(** 1129-1157 timeobj=True *)
Definition riseSetTransit_dt (lat ra dec : R) (lst0 : Z -> R) (off alt : R) (utc : bool) (date : Z) : option Z * option Z * option Z :=
  let '(rise, set_, transit) := riseSetTransit lat ra dec (lst0 date) off alt utc in
  let transitdate := (date + dayoff ra (lst0 date))%Z in
  match rise, set_, transit with
  | Some r, Some s, Some t =>
      (Some (if Rlt_dec r t then hrtodatetime transitdate r else (hrtodatetime transitdate r - day_us)%Z),
       Some (if Rlt_dec t s then hrtodatetime transitdate s else (hrtodatetime transitdate s + day_us)%Z),
       Some (hrtodatetime transitdate t))
  | _, _, Some t => (None, None, Some (hrtodatetime transitdate t))
  | _, _, None => (None, None, None)
  end.
(** nextRiseSetTransit 1161-1239; [now] is a UTC datetime *)
Definition nextRiseSetTransit (rst : Z -> option Z * option Z * option Z) (now : Z) : @res (option Z * option Z * option Z) :=
  let today := (now / day_us)%Z in
  let r1 := rst today in let r2 := rst (today + 1)%Z in let r0 := rst (today - 1)%Z in
  match r1 with
  | (None, _, Some t1) => if (now <? t1)%Z then Ok r1 else Ok r2
  | (_, _, None) => Ok r1
  | (Some _, s1, Some _) =>
      match r0 with
      | (_, Some s0, _) => if (now <? s0)%Z then Ok r0 else
          match s1 with Some s1 => if (now <? s1)%Z then Ok r1 else Ok r2 | None => Raise TypeError end
      | _ => Raise TypeError
      end
  end.
(** onSky 1241-1276 *)
Definition onSky (rst : Z -> option Z * option Z * option Z) (now : Z) : @res bool :=
  match nextRiseSetTransit rst now with
  | Raise e => Raise e | OutOfFuel => OutOfFuel
  | Ok (_, _, None) => Ok false
  | Ok (None, _, Some _) => Ok true
  | Ok (Some r, Some s, Some _) => Ok ((r <=? now)%Z && (now <=? s)%Z)
  | Ok (Some r, None, Some _) => Raise TypeError
  end.
