(** * SphereModel: LatLongCoordinates, RectangularCoordinates (astropysics/coords/coordsys.py 1209-1636)
    and the rotation matrices of astropysics/utils/alg.py 355-509.  Floats are reals. *)
From Coq Require Import Reals ZArith List Bool.
From Verif Require Import PyBase RealTrig AngleModel.
Import ListNotations.
Open Scope R_scope.

Record vec := V { vx : R; vy : R; vz : R }.
Record mat := M { m00 : R; m01 : R; m02 : R; m10 : R; m11 : R; m12 : R; m20 : R; m21 : R; m22 : R }.
Definition mv (m : mat) (v : vec) : vec :=
  V (m00 m * vx v + m01 m * vy v + m02 m * vz v) (m10 m * vx v + m11 m * vy v + m12 m * vz v) (m20 m * vx v + m21 m * vy v + m22 m * vz v).
Definition mm (a b : mat) : mat :=
  M (m00 a * m00 b + m01 a * m10 b + m02 a * m20 b) (m00 a * m01 b + m01 a * m11 b + m02 a * m21 b) (m00 a * m02 b + m01 a * m12 b + m02 a * m22 b)
    (m10 a * m00 b + m11 a * m10 b + m12 a * m20 b) (m10 a * m01 b + m11 a * m11 b + m12 a * m21 b) (m10 a * m02 b + m11 a * m12 b + m12 a * m22 b)
    (m20 a * m00 b + m21 a * m10 b + m22 a * m20 b) (m20 a * m01 b + m21 a * m11 b + m22 a * m21 b) (m20 a * m02 b + m21 a * m12 b + m22 a * m22 b).
Definition tr (a : mat) : mat := M (m00 a) (m10 a) (m20 a) (m01 a) (m11 a) (m21 a) (m02 a) (m12 a) (m22 a).

(** ** LatLongCoordinates: the slots [_lat], [_long], [_laterr], [_longerr].  The range of
    [_lat] is (-90,90,360) (1329), that of [_long] is the class attribute [_longrange_]. *)
Record coord := C { lat : ang; long : ang; laterr : option R; longerr : option R }.
Definition latrange : option (R * R * option R) := Some (rad (-90), rad 90, Some (rad 360)).

(** _setLat, 1404-1415; [x] is the radians of AngularCoordinate(val). *)
Definition setLat (c : coord) (x : R) : coord * @res unit :=
  let r := pymod x (2 * PI) in
  let r := if Rlt_dec (3 * PI / 2) r then r - 2 * PI else if Rlt_dec (PI / 2) r then PI - r else r in
  let '(a, o) := setRad (lat c) r in (C a (long c) (laterr c) (longerr c), o).
(** _setLong, 1423-1427 *)
Definition setLong (c : coord) (x : R) : coord * @res unit :=
  let '(a, o) := setRad (long c) (pymod x (2 * PI)) in (C (lat c) a (laterr c) (longerr c), o).
(** __init__ 1324-1346 with numbers in degrees (default 0) and the class's longitude range. *)
Definition newCoord (longrange : rangearg) (lo la : R) (loerr laerr : option R) : @res coord :=
  match setRange (Ang 0 None) longrange with
  | (lg, Ok _) =>
      let c0 := C (Ang 0 latrange) lg None None in
      match setLat c0 (rad la) with
      | (c1, Ok _) => match setLong c1 (rad lo) with (c2, Ok _) => Ok (C (lat c2) (long c2) laerr loerr) | (_, Raise e) => Raise e | (_, OutOfFuel) => OutOfFuel end
      | (_, Raise e) => Raise e | (_, OutOfFuel) => OutOfFuel
      end
  | (_, Raise e) => Raise e | (_, OutOfFuel) => OutOfFuel
  end.
(** __eq__ 1480-1484 (AngularCoordinate.__eq__ compares the radians) *)
Definition coord_eqb (a b : coord) : bool :=
  (if Req_EM_T (decval (lat a)) (decval (lat b)) then true else false) && (if Req_EM_T (decval (long a)) (decval (long b)) then true else false).

(** __sub__ 1489-1517: the separation in radians *)
Definition haversin (t : R) : R :=
  let r := pymod t PI in
  if Rlt_dec (PI / 4) r then if Rlt_dec r (3 * PI / 4) then (1 - cos t) / 2 else (sin (t / 2))² else (sin (t / 2))².
Definition archaversin (h : R) : R :=
  if Rlt_dec (1 / 4) h then if Rle_dec h (3 / 4) then acos (1 - 2 * h) else 2 * asin (sqrt h) else 2 * asin (sqrt h).
Definition sepRad (a b : coord) : R :=
  let b1 := decval (lat a) in let b2 := decval (lat b) in
  let db := Rabs (b2 - b1) in let dl := Rabs (decval (long b) - decval (long a)) in
  archaversin (haversin db + cos b1 * cos b2 * haversin dl).
(** ... returned as AngularSeparation(degrees(sep)) *)
Definition coordSub (a b : coord) : ang := sep1 (SNum (deg (sepRad a b))).

(** matrixRotate 1537-1636, with apply and fixrange as arguments, without unitarycheck.
    With nonzero errors the product of the 3x3 matrix of squares and the 1x3 matrix [dv]
    (1603-1604) raises ValueError. *)
Definition unit_of (la lo : R) : vec := V (cos la * cos lo) (cos la * sin lo) (sin la).
Definition sphLat (v : vec) : R := atan2 (vz v) (sqrt (vx v * vx v + vy v * vy v)).
Definition sphLong (v : vec) : R := atan2 (vy v) (vx v).
Definition fixLat (l : R) : R :=
  let ao := (l + PI / 2) / (2 * PI) in 2 * PI * Rabs (ao - IZR (rfloor (ao + 1 / 2))) - PI / 2.
Definition nz (o : option R) : bool := match o with None => false | Some e => if Req_EM_T e 0 then false else true end.
Definition matrixRotate (apply fixrange : bool) (m : mat) (c : coord) : coord * @res (R * R) :=
  let v := mv m (unit_of (decval (lat c)) (decval (long c))) in
  let latp := sphLat v in let longp := sphLong v in
  if nz (laterr c) || nz (longerr c) then (c, Raise ValueError) else
  let latp := if fixrange then fixLat latp else latp in
  let longp := if fixrange then pymod longp (2 * PI) else longp in
  if apply then
    match setRad (lat c) latp with
    | (la, Ok _) =>
        match setRad (long c) longp with
        | (lo, Ok _) => (C la lo (laterr c) (longerr c), Ok (latp, longp))
        | (lo, Raise e) => (C la lo (laterr c) (longerr c), Raise e)
        | (lo, OutOfFuel) => (C la lo (laterr c) (longerr c), OutOfFuel)
        end
    | (la, Raise e) => (C la (long c) (laterr c) (longerr c), Raise e)
    | (la, OutOfFuel) => (C la (long c) (laterr c) (longerr c), OutOfFuel)
    end
  else (c, Ok (latp, longp)).
(** unitarycheck, 1565-1569, in exact arithmetic: the test made is M* M = M M*. *)
Definition matEqb (a b : mat) : bool :=
  let e x y := if Req_EM_T x y then true else false in
  e (m00 a) (m00 b) && e (m01 a) (m01 b) && e (m02 a) (m02 b) && e (m10 a) (m10 b) && e (m11 a) (m11 b) && e (m12 a) (m12 b)
  && e (m20 a) (m20 b) && e (m21 a) (m21 b) && e (m22 a) (m22 b).
Definition matrixRotateChecked (apply fixrange : bool) (m : mat) (c : coord) : coord * @res (R * R) :=
  if matEqb (mm (tr m) m) (mm m (tr m)) then matrixRotate apply fixrange m c else (c, Raise ValueError).
(** _smatrix 1527-1535: the transform by a matrix to a class with the given longitude range *)
Definition smatrix (m : mat) (c : coord) (longrange : rangearg) : @res coord :=
  match newCoord longrange 0 0 None None with
  | Ok n => match setLat n (decval (lat c)) with
            | (n1, Ok _) => match setLong (C (lat n1) (long n1) (laterr c) (longerr c)) (decval (long c)) with
                            | (n2, Ok _) => match matrixRotate true true m n2 with
                                            | (n3, Ok _) => Ok n3 | (_, Raise e) => Raise e | (_, OutOfFuel) => OutOfFuel end
                            | (_, Raise e) => Raise e | (_, OutOfFuel) => OutOfFuel end
            | (_, Raise e) => Raise e | (_, OutOfFuel) => OutOfFuel end
  | Raise e => Raise e | OutOfFuel => OutOfFuel
  end.

(** Assignments made to a coordinate: through the properties, through the angle objects
    they return, or by a rotation. *)
Inductive cop := CLat (x : R) | CLong (x : R) | CLatA (o : aop) | CLongA (o : aop) | CRot (m : mat).
Definition cstep (c : coord) (o : cop) : coord :=
  match o with
  | CLat x => fst (setLat c x) | CLong x => fst (setLong c x)
  | CLatA o => C (fst (astep (lat c) o)) (long c) (laterr c) (longerr c)
  | CLongA o => C (lat c) (fst (astep (long c) o)) (laterr c) (longerr c)
  | CRot m => fst (matrixRotate true true m c)
  end.
Definition crun (c : coord) (l : list cop) : coord := fold_left cstep l c.

(** ** RectangularCoordinates 1237-1273 *)
Definition radd (a b : vec) : vec := V (vx a + vx b) (vy a + vy b) (vz a + vz b).
Definition rsub (a b : vec) : vec := V (vx a - vx b) (vy a - vy b) (vz a - vz b).
Definition rlength (a : vec) : R := sqrt (vx a * vx a + vy a * vy a + vz a * vz a).
Definition setLength (a : vec) (val : R) : vec * @res unit :=
  if Req_EM_T (rlength a) 0 then (a, Raise ZeroDivisionError)
  else let s := val / rlength a in (V (vx a * s) (vy a * s) (vz a * s), Ok tt).

(** ** Rotation matrices, utils/alg.py 355-413 *)
Inductive axis := AX | AY | AZ | AV (x y z : R).
Definition rotation_matrix (angle : R) (ax : axis) (degrees : bool) : @res mat :=
  let a := if degrees then rad angle else angle in
  let s := sin a in let c := cos a in
  match ax with
  | AZ => Ok (M c s 0 (- s) c 0 0 0 1)
  | AY => Ok (M c 0 (- s) 0 1 0 s 0 c)
  | AX => Ok (M 1 0 0 0 c s 0 (- s) c)
  | AV x y z =>
      let w := cos (a / 2) in
      let build x y z := Ok (M (w*w + x*x - y*y - z*z) (2*x*y - 2*w*z) (2*x*z + 2*w*y)
                               (2*x*y + 2*w*z) (w*w - x*x + y*y - z*z) (2*y*z - 2*w*x)
                               (2*x*z - 2*w*y) (2*y*z + 2*w*x) (w*w - x*x - y*y + z*z)) in
      if Req_EM_T w 1 then build 0 0 0
      else if Req_EM_T (1 - w * w) 0 then Raise ZeroDivisionError
      else let l := sqrt ((x*x + y*y + z*z) / (1 - w * w)) in
           if Req_EM_T l 0 then Raise ZeroDivisionError else build (x / l) (y / l) (z / l)
  end.
(** angle_axis 416-447.  The local import of math.degrees hides the argument, so the angle is
    always in degrees.  [None]: not-a-number components (division of an array by zero). *)
Definition angle_axis (m : mat) (degrees : bool) : @res (R * option vec) :=
  let t := (m00 m + m11 m + m22 m - 1) / 2 in
  if Rlt_dec 1 (Rabs t) then Raise ValueError else
  let p := m21 m - m12 m in let q := m02 m - m20 m in let r := m10 m - m01 m in
  let d2 := 2 * (p + q + r) in
  if Rlt_dec d2 0 then Raise ValueError else
  if Req_EM_T d2 0 then Ok (deg (acos t), None) else
  let d := sqrt d2 in
  let n := sqrt (p / d * (p / d) + q / d * (q / d) + r / d * (r / d)) in
  Ok (deg (acos t), Some (V (p / d / n) (q / d / n) (r / d / n))).
(** rotation_matrix_xy 449-474: the name [n] is not defined. *)
Definition rotation_matrix_xy (x y : R) : @res mat :=
  if Rlt_dec (1 - x * x - y * y) 0 then Raise ValueError else Raise NameError.
(** intrinsic_to_observed_ellipticity, observed_to_intrinsic_ellipticity 477-509, radians *)
Definition intrinsic_to_observed (ei i : R) : R := 1 - sqrt ((1 - ei)² * (sin i)² + (cos i)²).
Definition observed_to_intrinsic (eo i : R) : R := 1 - sqrt ((1 - eo) - (cos i)²) / sin i.
