(** * ObsTimeModel: jd_to_epoch, epoch_to_jd, delta_AT (astropysics/obstools.py 464-685)
    Numbers are rationals. *)
From Coq Require Import ZArith QArith List Bool.
From Verif Require Import PyBase CalendarModel.
Import ListNotations.
Open Scope Q_scope.

(** ** Epochs *)
Definition mjdoffset : Q := 24000005 # 10. (* obstools.py 103 *)
(** jd_to_epoch 497-503 with asstring=False (an int or a float of the same value). *)
Definition jd_to_epoch (julian mjd : bool) (jd : Q) : Q :=
  let jd := if mjd then jd + mjdoffset else jd in
  if julian then 2000 + (jd - 2451545) / (1461 # 4)
  else 1900 + (jd - (241502031352 # 100000)) / (365242198781 # 1000000000).
(** epoch_to_jd 546-568.  A scalar epoch is a number or a string with an optional leading J or B. *)
Inductive letter := LJ | LB | Lnone.
Inductive epoch_arg := ENum (x : Q) | EStr (l : letter) (x : Q).
Definition epoch_formula (julian : bool) (e : Q) : Q :=
  if julian then (e - 2000) * (1461 # 4) + 2451545 else (e - 1900) * (365242198781 # 1000000000) + (241502031352 # 100000).
Definition epoch_to_jd (julian mjd : bool) (a : epoch_arg) : Q :=
  let '(julian, e) := match a with
    | ENum x => (julian, x) | EStr LJ x => (true, x) | EStr LB x => (false, x) | EStr Lnone x => (julian, x) end in
  let r := epoch_formula julian e in
  if mjd then r - mjdoffset else r.
(** An array of strings: 556-557, the recursive calls get no mjd argument and their
    results are returned as they are. *)
Definition epoch_array_to_jd (julian mjd : bool) (l : list (letter * Q)) : list Q :=
  map (fun p => epoch_to_jd julian false (EStr (fst p) (snd p))) l.
(** jd_to_epoch 495-498: an array argument is not copied; the caller's array after the call. *)
Definition jd_array_after (mjd : bool) (l : list Q) : list Q := if mjd then map (fun x => x + mjdoffset) l else l.

(** ** delta_AT 571-685.  Table entries (12*year+month, TAI-UTC); drift rows (MJD, s/day). *)
Definition ym (y m : Z) : Z := (12 * y + m)%Z.
Definition dat_changes : list (Z * Q) := [
  (ym 1960  1,  14178180#10000000); (ym 1961  1,  14228180#10000000); (ym 1961  8,  13728180#10000000);
  (ym 1962  1,  18458580#10000000); (ym 1963 11,  19458580#10000000); (ym 1964  1,  32401300#10000000);
  (ym 1964  4,  33401300#10000000); (ym 1964  9,  34401300#10000000); (ym 1965  1,  35401300#10000000);
  (ym 1965  3,  36401300#10000000); (ym 1965  7,  37401300#10000000); (ym 1965  9,  38401300#10000000);
  (ym 1966  1,  43131700#10000000); (ym 1968  2,  42131700#10000000);
  (ym 1972  1, 10); (ym 1972  7, 11); (ym 1973  1, 12); (ym 1974  1, 13); (ym 1975  1, 14); (ym 1976  1, 15);
  (ym 1977  1, 16); (ym 1978  1, 17); (ym 1979  1, 18); (ym 1980  1, 19); (ym 1981  7, 20); (ym 1982  7, 21);
  (ym 1983  7, 22); (ym 1985  7, 23); (ym 1988  1, 24); (ym 1990  1, 25); (ym 1991  1, 26); (ym 1992  7, 27);
  (ym 1993  7, 28); (ym 1994  7, 29); (ym 1996  1, 30); (ym 1997  7, 31); (ym 1999  1, 32); (ym 2006  1, 33);
  (ym 2009  1, 34)].
Definition dat_drift : list (Q * Q) := [
  (37300#1, 12960#10000000); (37300#1, 12960#10000000); (37300#1, 12960#10000000); (37665#1, 11232#10000000);
  (37665#1, 11232#10000000); (38761#1, 12960#10000000); (38761#1, 12960#10000000); (38761#1, 12960#10000000);
  (38761#1, 12960#10000000); (38761#1, 12960#10000000); (38761#1, 12960#10000000); (38761#1, 12960#10000000);
  (39126#1, 25920#10000000); (39126#1, 25920#10000000)].

(** 608-612: [i = np.sum(__dat_m<m)-1], 0 (with a warning) if negative. *)
Definition dat_index (m : Z) : nat * bool :=
  match length (filter (fun e => (fst e <? m)%Z) dat_changes) with O => (O, true) | S i => (i, false) end.
Inductive warning := WFuture | WBefore1960.
(** The function on the date and time of day given by jd_to_calendar(jdutc), 599-622. *)
Definition delta_AT_at (c : date) (t : clock) (jdutc : Q) (usett : bool) : Q * list warning :=
  let w1 := if (yr c >? 2009 + 5)%Z then [WFuture] else [] in
  let (i, neg) := dat_index (12 * yr c + mon c) in
  let w2 := if neg then [WBefore1960] else [] in
  let delat := match nth_error dat_changes i with Some (_, v) => v | None => 0 end in
  let delat := match nth_error dat_drift i with
    | Some (d0, d1) =>
        let fd := inject_Z (hour t) / 24 + inject_Z (minute t) / 24 / 60 + inject_Z (second t) / 24 / 3600
                  + inject_Z (usec t) / 24 / 3600000000 in
        delat + (jdutc - mjdoffset + fd - d0) * d1
    | None => delat
    end in
  (if usett then delat - (32184 # 1000) else delat, w1 ++ w2).
(** delta_AT of the Julian Date [k * 2^-31] *)
Definition delta_AT (k : Z) (usett : bool) : @res (Q * list warning) :=
  match jd_to_cal GNone 1000000 k with
  | Ok (c, t) => Ok (delta_AT_at c t (k # 2147483648) usett)
  | Raise e => Raise e
  | OutOfFuel => OutOfFuel
  end.
