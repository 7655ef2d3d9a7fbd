(** * FuncsModel: functional coordinate transforms and matching (astropysics/coords/funcs.py) *)
From Coq Require Import Reals ZArith List Bool Arith.
From Verif Require Import PyBase RealTrig AlgModel.
Import ListNotations.
Open Scope R_scope.

(** ** polar, spherical and cylindrical coordinates, 215-387 *)
(** cartesian_to_polar 215-237 *)
Definition cartesian_to_polar (x y : R) (degrees : bool) : R * R :=
  let r := sqrt (x * x + y * y) in let t := atan2 y x in (r, if degrees then deg t else t).
(** polar_to_cartesian 239-260 *)
Definition polar_to_cartesian (r t : R) (degrees : bool) : R * R :=
  let t := if degrees then rad t else t in (r * cos t, r * sin t).
(** cartesian_to_spherical 262-289 *)
Definition cartesian_to_spherical (x y z : R) (degrees : bool) : R * R * R :=
  let xsq := x * x in let ysq := y * y in let zsq := z * z in
  let r := sqrt (xsq + ysq + zsq) in let t := atan2 (sqrt (xsq + ysq)) z in let p := atan2 y x in
  if degrees then (r, deg t, deg p) else (r, t, p).
(** spherical_to_cartesian 291-317 *)
Definition spherical_to_cartesian (r t p : R) (degrees : bool) : R * R * R :=
  let '(t, p) := if degrees then (rad t, rad p) else (t, p) in
  (r * sin t * cos p, r * sin t * sin p, r * cos t).
(** latitude_to_colatitude, colatitude_to_latitude 319-346 *)
Definition latitude_to_colatitude (lat : R) (degrees : bool) : R := if degrees then 90 - lat else PI / 2 - lat.
Definition colatitude_to_latitude (theta : R) (degrees : bool) : R := if degrees then 90 - theta else PI / 2 - theta.
(** cartesian_to_cylindrical 348-368: [degrees] is not passed on *)
Definition cartesian_to_cylindrical (x y z : R) (degrees : bool) : R * R * R :=
  let '(s, t) := cartesian_to_polar x y false in (s, t, z).
(** cylindrical_to_cartesian 370-388 *)
Definition cylindrical_to_cartesian (s t z : R) (degrees : bool) : R * R * R :=
  let '(x, y) := polar_to_cartesian s t degrees in (x, y, z).

(** ** sizes 982-1064 (usez=False; [asecperrad] any positive number, constants.py 144).  [None]: infinite *)
(** [(1/sintheta/sintheta-1)**-0.5]: an infinite base gives 0, a zero base infinity, a negative base NaN (cannot happen) *)
Definition angular_to_physical_size (asecperrad angsize d : R) : option R :=
  let s := sin (angsize / asecperrad) in
  if Req_EM_T s 0 then Some (d * 0)
  else let b := 1 / s / s - 1 in if Req_EM_T b 0 then None else Some (d * / sqrt b).
Definition physical_to_angular_size (asecperrad physize d : R) : R :=
  asecperrad * asin (physize * / sqrt (d * d + physize * physize)).

(** ** latitudes 1067-1119, in radians; [boasq] = (Reb/Rea)**2, constants.py 120-121 *)
Definition Rea : R := 637813700.
Definition Reb : R := Rea * (1 - 1 / (298257223563 / 1000000000)).
Definition boasq : R := (Reb / Rea) * (Reb / Rea).
Definition geographic_to_geocentric_latitude (lat : R) : R := atan (boasq * tan lat).
Definition geocentric_to_geographic_latitude (lat : R) : R := atan (1 / boasq * tan lat).

(** ** time angles 73-213.  [jd2000] = 2451545 (obstools.py) *)
Definition jd2000 : R := 2451545.
Inductive angunit := Turns | Degrees | Radians.   (* degrees = None, True, False *)
Definition earth_rotation_angle (jd : R) (u : angunit) : R :=
  let d := jd - jd2000 in
  let r := pymod (7790572732640 / 10000000000000 + 273781191135448 / 100000000000000000 * d + pymod d 1) 1 in
  match u with Turns => r | Degrees => r * 360 | Radians => r * 2 * PI end.
(** [poly]: _gmst_poly_sofa; [corr]: dpsi*cos(eps) of the nutation model chosen, 0 for apparent=False *)
Definition greenwich_sidereal_time (poly corr : R -> R) (jd : R) (apparent : bool) : R :=
  let gmst := earth_rotation_angle jd Radians + poly ((jd - 2451545) / 36525) in
  if apparent then pymod ((gmst + corr jd) * 12 / PI + 0) 24 else pymod (gmst * 12 / PI) 24.
(** 186-213 *)
Definition equation_of_the_equinoxes poly corr jd : R := greenwich_sidereal_time poly corr jd true - greenwich_sidereal_time poly corr jd false.
Definition equation_of_the_origins poly corr jd : R := earth_rotation_angle jd Turns * 24 - greenwich_sidereal_time poly corr jd true.

(** ** match_coords 491-620.  [p1], [p2]: the lists of (a,b) pairs; the arrays of a set have equal lengths (numpy otherwise raises or broadcasts) *)
Definition hypot (x y : R) : R := sqrt (x * x + y * y).
Definition dist2 (p q : R * R) : R := hypot (fst p - fst q) (snd p - snd q).
Definition matches (p1 p2 : list (R * R)) (eps : R) : list (list bool) := map (fun p => map (fun q => Rleb (dist2 p q) eps) p2) p1.
(** numpy: any and sum over the last axis (rows) and the first axis (columns); where; transpose of an n x m array *)
Definition anyb (l : list bool) : bool := existsb (fun b => b) l.
Definition column (m : list (list bool)) (j : nat) : list bool := map (fun r => nth j r false) m.
Definition columns (k : nat) (m : list (list bool)) : list (list bool) := map (column m) (seq 0 k).
Definition where2 (m : list (list bool)) : list (nat * nat) :=
  concat (map (fun ir => map (fun j => (fst ir, j)) (filter (fun j => nth j (snd ir) false) (seq 0 (length (snd ir))))) (combine (seq 0 (length m)) m)).
Inductive mode := MMask | MExcept | MWarn | MCount | MIndex | M2D | MOther.
Inductive mres := RMasks (m1 m2 : list bool) | RCounts (n1 n2 : nat) | RIndex (l : list (nat * nat)) | R2D (m : list (list bool)).
Definition match_coords (p1 p2 : list (R * R)) (eps : R) (md : mode) : @res mres :=
  let m := matches p1 p2 eps in let mt := columns (length p2) m in
  let s1 := map count m in let s2 := map count mt in
  match md with
  | MMask => Ok (RMasks (map anyb m) (map anyb mt))
  | MExcept => if forallb (fun s => s <? 2)%nat s1 && forallb (fun s => s <? 2)%nat s2
               then Ok (RMasks (map (fun s => 0 <? s)%nat s1) (map (fun s => 0 <? s)%nat s2)) else Raise ValueError
  | MWarn => Ok (RMasks (map (fun s => 0 <? s)%nat s1) (map (fun s => 0 <? s)%nat s2))
  | MCount => Ok (RCounts (count (map anyb m)) (count (map anyb mt)))
  | MIndex => Ok (RIndex (where2 m))
  | M2D => Ok (R2D mt)
  | MOther => Raise ValueError
  end.
(** match_nearest_coords 622-688 and mode 'nearest' 566-583: [kdt pts q n] is scipy's KDTree(pts).query(q,n): the n nearest (distance, index) *)
Definition match_nearest (kdt : list (R * R) -> R * R -> nat -> list (R * nat)) (c1 c2 : list (R * R)) (n : nat) : list (R * nat) :=
  map (fun q => nth (n - 1) (kdt c2 q n) (0, 0%nat)) c1.
Definition match_coords_nearest kdt (p1 p2 : list (R * R)) (eps : R) (identical : bool) : list (nat * R * bool) :=
  map (fun r => (snd r, fst r, Rleb (fst r) eps)) (match_nearest kdt p1 p2 (if identical then 2 else 1)%nat).
