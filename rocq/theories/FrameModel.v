(** * FrameModel: the celestial reference systems and the transformations between them
    (astropysics/coords/coordsys.py 1744-1784, 1893-1945, 2284-2302, 2421-2437, 2481-3326;
    obliquity of coords/funcs.py 30-71).  Floats are reals.
    Left out: the nutation series, the CIO locator series, the sidereal time and the equation of the
    origins, which are arguments; aberration is not in the code; errors of the angles other than none or zero
    make every rotation raise (C22). *)
From Coq Require Import Reals List Bool.
From Verif Require Import PyBase RealTrig AngleModel SphereModel SphereProofs.
Import ListNotations.
Open Scope R_scope.

Inductive frame := ICRS | FK5 | FK4 | GCRS | CIRS | EQX | ITRS | GAL | SGAL | ECLC | ECLQ.
Definition frame_eq (a b : frame) : {a = b} + {a <> b}. Proof. decide equality. Defined.
(** rotation_matrix(d,axis): degrees by default *)
Definition rot (ax : axis) (d : R) : mat := match rotation_matrix d ax true with Ok m => m | _ => idm end.
Definition rotr (ax : axis) (r : R) : mat := match rotation_matrix r ax false with Ok m => m | _ => idm end.
(** np.polyval: highest power first *)
Definition polyval (p : list R) (t : R) : R := fold_left (fun a c => a * t + c) p 0.
Definition m3 (a b c : mat) : mat := mm (mm a b) c.
(** ICRSCoordinates.__makeFrameBias 1931-1942 *)
Definition frameBias : mat := m3 (rot AX (- (-6.8192) / 3600000)) (rot AY (-16.6170 / 3600000)) (rot AZ (-14.6 / 3600000)).
(** _precession_matrix_J2000_Capitaine 2284-2302 *)
Definition precCap (epoch : R) : mat :=
  let T := (epoch - 2000) / 100 in
  let zeta := polyval [-0.0000003173; -0.000005971; 0.01801828; 0.2988499; 2306.083227; 2.650545] T / 3600 in
  let z := polyval [-0.0000002904; -0.000028596; 0.01826837; 1.0927348; 2306.077181; -2.650545] T / 3600 in
  let theta := polyval [-0.0000001274; -0.000007089; -0.04182264; -0.4294934; 2004.191903; 0] T / 3600 in
  m3 (rot AZ (- z)) (rot AY theta) (rot AZ (- zeta)).
(** FK5Coordinates._precessionMatrixJ 2861-2883 *)
Definition precJ (e1 e2 : R) : mat :=
  let T := (e1 - 2000) / 100 in let dt := (e2 - e1) / 100 in
  let t1 := 2306.2181 + T * (1.39656 + T * -0.000139) in
  let zeta := dt * (t1 + dt * ((0.30188 + 0.000344 * T) + dt * 0.017998)) / 3600 in
  let z := dt * (t1 + dt * ((1.09468 + -0.000066 * T) + dt * 0.018203)) / 3600 in
  let t2 := 2004.3109 + T * (-0.85330 + T * -0.000217) in
  let theta := dt * (t2 + dt * ((-0.42665 + -0.000217 * T) + dt * -0.041833)) / 3600 in
  m3 (rot AZ (- z)) (rot AY theta) (rot AZ (- zeta)).
(** FK4Coordinates._precessionMatrixB 2979-3011 *)
Definition precB (e1 e2 : R) : mat :=
  let t1 := (e1 - 1850) / 1000 in let t2 := (e2 - 1850) / 1000 in let dt := t2 - t1 in
  let zeta := polyval [17.995; 30.240 - 0.27 * t1; 23035.545 + t1 * 139.720 + 0.060 * t1 * t1; 0] dt / 3600 in
  let z := polyval [18.325; 109.480 + 0.39 * t1; 23035.545 + t1 * 139.720 + 0.060 * t1 * t1; 0] dt / 3600 in
  let theta := polyval [-41.8; -42.65 - 0.37 * t1; 20051.12 - 85.29 * t1 - 0.37 * t1 * t1; 0] dt / 3600 in
  m3 (rot AZ (- z)) (rot AY theta) (rot AZ (- zeta)).
(** FK5Coordinates._fromICRS 2911-2929 *)
Definition icrs_fk5 (ep : option R) : mat :=
  let B := m3 (rot AX (- (-19.9 / 3600000))) (rot AY (9.1 / 3600000)) (rot AZ (-22.9 / 3600000)) in
  match ep with None => B | Some e => mm (precJ 2000 e) B end.
(** FK4Coordinates._toFK5 3015-3045; epoch_to_jd and jd_to_epoch of obstools.py 526-568 *)
Definition murray : mat := M 0.9999256794956877 (-0.0111814832204662) (-0.0048590038153592)
                             0.0111814832391717 0.9999374848933135 (-0.0000271625947142)
                             0.0048590037723143 (-0.0000271702937440) 0.9999881946023742.
Definition murrayT (T : R) : mat :=
  M (m00 murray + -0.0000000026455262 * T) (m01 murray + -0.0000011539918689 * T) (m02 murray + 0.0000021111346190 * T)
    (m10 murray + 0.0000011540628161 * T) (m11 murray + -0.0000000129042997 * T) (m12 murray + 0.0000000236021478 * T)
    (m20 murray + -0.0000021112979048 * T) (m21 murray + -0.0000000056024448 * T) (m22 murray + 0.0000000102587734 * T).
Definition fk4_fk5 (ep : option R) : mat :=
  match ep with
  | None => murray
  | Some e => if Req_EM_T e 1950 then murray else
      let jd := (e - 1900) * 365.242198781 + 2415020.31352 in
      let jepoch := 2000 + (jd - 2451545) / 365.25 in
      mm (murrayT ((jepoch - 1950) / 100)) (precB e 1950)
  end.
(** the attribute I of a numpy matrix; a singular one raises LinAlgError *)
Definition inverse (m : mat) : @res mat := if Req_EM_T (det m) 0 then Raise (UserExn 0) else Ok (smat (/ det m) (adj m)).
(** GalacticCoordinates 3251-3256, _fromFK5 3264-3275, _fromFK4 3281-3292; SupergalacticCoordinates 3303-3304, _fromGal 3317-3325 *)
Definition fk5_gal (ep : option R) : mat :=
  let e := match ep with None => 2000 | Some e => e end in
  mm (m3 (rot AZ (180 - 122.932)) (rot AY (90 - 27.128336)) (rot AZ 192.859508)) (precJ e 2000).
Definition fk4_gal (ep : option R) : mat :=
  let e := match ep with None => 1950 | Some e => e end in
  mm (m3 (rot AZ (180 - 123)) (rot AY (90 - 27.4)) (rot AZ 192.25)) (precB e 1950).
Definition gal_sgal : mat := m3 (rot AZ (180 - 137.37 + 47.37)) (rot AY (90 - 6.32)) (rot AZ 47.37).
(** obliquity, coords/funcs.py 30-71, of a Julian epoch (jd2000 is 2451545): algorithms 2006 and 1980 *)
Definition obliquity (y2006 : bool) (epoch : R) : R :=
  let jd := (epoch - 2000) * 365.25 + 2451545 in
  let T := (jd - 2451545) / 36525 in
  (if y2006 then polyval [-0.0000000434; -0.000000576; 0.00200340; -0.0001831; -46.836769; 84381.406] T
   else polyval [0.001813; -0.00059; -46.8150; 84381.448] T) / 3600.
Section Frames.
(** nutation (mean obliquity, dpsi, deps) and CIO locator in radians; equation of the origins, rotation angle of the
    Earth, sidereal time, polar motion (0 if it is None) in degrees: functions of the epoch *)
Variables eps dpsi deps cio eqo era gst xp yp : R -> R.
(** _nutation_matrix 2421-2437 *)
Definition nutation (e : R) : mat := m3 (rotr AX (- (eps e + deps e))) (rotr AZ (- dpsi e)) (rotr AX (eps e)).
Definition npb (e : R) : mat := m3 (nutation e) (precCap e) frameBias.
(** CIRSCoordinates._CMatrix 2520-2557 *)
Definition cmatrix (ep : option R) : @res mat :=
  match ep with
  | None => Ok frameBias
  | Some t =>
      let x := m20 (npb t) in let y := m21 (npb t) in let z := m22 (npb t) in
      if Req_EM_T (1 + z) 0 then Raise ZeroDivisionError else
      let bz := 1 / (1 + z) in
      let a := 1 - bz * (x * x) in let b := - bz * x * y in let c := - x in
      let d := - bz * x * y in let e := 1 - bz * (y * y) in let f := - y in
      let si := sin (cio t) in let co := cos (cio t) in
      Ok (M (a * co - d * si) (b * co - e * si) (c * co - f * si)
            (a * si + d * co) (b * si + e * co) (c * si + f * co)
            x y (1 - bz * (x * x + y * y)))
  end.
(** EquatorialCoordinatesEquinox._fromGCRS, _toCIRS 2667-2692 *)
Definition gcrs_eqx (ep : option R) : mat := match ep with None => frameBias | Some e => npb e end.
Definition eqx_cirs (ep : option R) : mat := match ep with None => idm | Some e => rot AZ (- eqo e) end.
(** ITRSCoordinates._TIOLocator, _WMatrix 2744-2779: the radians of s' are given as degrees *)
Definition asecperrad : R := 206264.8062470963551564734.
Definition wmatrix (e : R) : mat := m3 (rot AX (- yp e)) (rot AY (- xp e)) (rot AZ (- 0.000047 * ((e - 2000) / 100) / asecperrad)).
(** _fromEqC, _fromEqE 2803-2839 *)
Definition to_itrs (turn : R -> R) (ep : option R) : mat := match ep with None => idm | Some e => mm (wmatrix e) (rot AZ (turn e)) end.
(** EclipticCoordinates: _toEq, _fromEq 3079-3091, 3132-3144; jdepoch of None raises TypeError *)
Definition ecl (y2006 : bool) (sign : R) (ep : option R) : @res mat := match ep with None => Raise TypeError | Some e => Ok (rot AX (sign * obliquity y2006 e)) end.
(** the matrix of the registered transformation between two classes, if there is one *)
Definition trans (f g : frame) (ep : option R) : option (@res mat) :=
  match f, g with
  | ICRS, FK5 => Some (Ok (icrs_fk5 ep))
  | FK5, ICRS => Some (Ok (tr (icrs_fk5 ep)))
  | FK4, FK5 => Some (Ok (fk4_fk5 ep))
  | FK5, FK4 => Some (inverse (fk4_fk5 ep))
  | GCRS, CIRS => Some (cmatrix ep)
  | CIRS, GCRS => Some (match cmatrix ep with Ok m => Ok (tr m) | x => x end)
  | GCRS, EQX => Some (Ok (gcrs_eqx ep))
  | EQX, GCRS => Some (Ok (tr (gcrs_eqx ep)))
  | EQX, CIRS => Some (Ok (eqx_cirs ep))
  | CIRS, EQX => Some (Ok (tr (eqx_cirs ep)))
  | CIRS, ITRS => Some (Ok (to_itrs era ep))
  | ITRS, CIRS => Some (Ok (tr (to_itrs era ep)))
  | EQX, ITRS => Some (Ok (to_itrs gst ep))
  | ITRS, EQX => Some (Ok (tr (to_itrs gst ep)))
  | FK5, GAL => Some (Ok (fk5_gal ep))
  | GAL, FK5 => Some (Ok (tr (fk5_gal ep)))
  | FK4, GAL => Some (Ok (fk4_gal ep))
  | GAL, FK4 => Some (Ok (tr (fk4_gal ep)))
  | GAL, SGAL => Some (Ok gal_sgal)
  | SGAL, GAL => Some (Ok (tr gal_sgal))
  | ECLC, CIRS => Some (ecl true (-1) ep)
  | CIRS, ECLC => Some (ecl true 1 ep)
  | ECLQ, EQX => Some (ecl false (-1) ep)
  | EQX, ECLQ => Some (ecl false 1 ep)
  | _, _ => None
  end.
(** class attributes and defaults of the constructors: longitude range, epoch; the classes whose convert keeps the distance *)
Definition longrange (f : frame) : rangearg := match f with ITRS => R2 (-180) 180 | _ => R2 0 360 end.
Definition default_epoch (f : frame) : option R := match f with FK4 => Some 1950 | ITRS | GAL | SGAL => None | _ => Some 2000 end.
Definition keeps_distance (f : frame) : bool := match f with GAL | SGAL | ECLC | ECLQ => false | _ => true end.
(** ** Objects *)
Record obj := Obj { fr : frame; at_ : coord; ep : option R; dist : option (R * R) }.
(** one transformation of type smatrix: registerTransform 888-890, _smatrix 1527-1535 (the new object is tocls()) *)
Definition step (o : obj) (g : frame) : @res obj :=
  match trans (fr o) g (ep o) with
  | None => Raise NotImplementedError
  | Some (Ok m) => match smatrix m (at_ o) (longrange g) with Ok c => Ok (Obj g c (default_epoch g) None) | Raise e => Raise e | OutOfFuel => OutOfFuel end
  | Some (Raise e) => Raise e
  | Some OutOfFuel => OutOfFuel
  end.
Fixpoint walk (o : obj) (path : list frame) : @res obj :=
  match path with [] => Ok o | g :: r => match step o g with Ok o' => walk o' r | x => x end end.
(** convert along a path of classes (found by CoordinateSystem.convert 1085-1108, C24): 1779-1784, 1893-1898, 2796-2801 *)
Definition convert (o : obj) (path : list frame) : @res obj :=
  match walk o path with
  | Ok r => Ok (Obj (fr r) (at_ r) (ep o) (if keeps_distance (fr o) then match dist o with None => dist r | Some d => Some d end else dist r))
  | x => x
  end.
(** ** transformToEpoch: 1924, 2505-2517 (CIRS), 2648-2665 (equinox), 2780-2793 (ITRS), 2885-2909 (FK5), 2969-2976 (FK4),
    3257-3262, 3306-3311; that of GCRS is an argument (C120) *)
Variable gcrs_to : obj -> R -> obj * @res unit.
Definition rotated (o : obj) (m : mat) (e : R) : obj * @res unit :=
  match matrixRotate true true m (at_ o) with
  | (c, Ok _) => (Obj (fr o) c (Some e) (dist o), Ok tt)
  | (c, Raise x) => (Obj (fr o) c (ep o) (dist o), Raise x)
  | (c, OutOfFuel) => (Obj (fr o) c (ep o) (dist o), OutOfFuel)
  end.
Definition label (o : obj) (e : option R) : obj := Obj (fr o) (at_ o) e (dist o).
Definition cirs_to (o : obj) (e0 e : R) : obj * @res unit :=
  match cmatrix (Some e0), cmatrix (Some e) with
  | Ok a, Ok b => rotated o (mm b (tr a)) e
  | Raise x, _ | _, Raise x => (o, Raise x)
  | _, _ => (o, OutOfFuel)
  end.
Definition eqx_to (o : obj) (e0 e : R) : obj * @res unit := rotated o (mm (mm (nutation e) (precCap e)) (mm (nutation e0) (tr (precCap e0)))) e.
(** the ecliptic classes 3093-3103, 3146-3156: by the equatorial class [g] and back; then _laterr._decval is assigned *)
Definition ecl_to (eq_to : obj -> R -> R -> obj * @res unit) (g : frame) (o : obj) (e0 e : R) : obj * @res unit :=
  match convert o [g] with
  | Ok q => match eq_to q e0 e with
            | (q', Ok _) =>
                match convert q' [fr o] with
                | Ok n =>
                    let la := Ang (decval (lat (at_ n))) (range (lat (at_ o))) in let lo := Ang (decval (long (at_ n))) (range (long (at_ o))) in
                    match laterr (at_ o) with
                    | None => (Obj (fr o) (C la lo None (longerr (at_ o))) (ep o) (dist o), Raise AttributeError)
                    | Some _ =>
                        match longerr (at_ o), longerr (at_ n) with
                        | Some _, Some y => (Obj (fr o) (C la lo (Some (decval (lat (at_ n)))) (Some y)) (Some e) (dist o), Ok tt)
                        | _, _ => (Obj (fr o) (C la lo (Some (decval (lat (at_ n)))) (longerr (at_ o))) (ep o) (dist o), Raise AttributeError)
                        end
                    end
                | Raise x => (o, Raise x) | OutOfFuel => (o, OutOfFuel) end
            | (_, Raise x) => (o, Raise x) | (_, OutOfFuel) => (o, OutOfFuel) end
  | Raise x => (o, Raise x) | OutOfFuel => (o, OutOfFuel)
  end.
Definition to_epoch (o : obj) (e0 e : R) : obj * @res unit :=
  match fr o with
  | ICRS | GAL | SGAL => (label o (Some e), Ok tt)
  | FK5 => rotated o (precJ e0 e) e
  | FK4 => rotated o (precB e0 e) e
  | CIRS => cirs_to o e0 e
  | EQX => eqx_to o e0 e
  | ITRS => rotated o (mm (wmatrix e) (tr (wmatrix e0))) e
  | ECLC => ecl_to cirs_to CIRS o e0 e
  | ECLQ => ecl_to eqx_to EQX o e0 e
  | GCRS => gcrs_to o e
  end.
(** the property epoch, _setEpoch 1145-1155 *)
Definition set_epoch (o : obj) (v : option R) : obj * @res unit :=
  match v, ep o with
  | None, _ => (label o None, Ok tt)
  | Some e, None => (label o (Some e), Ok tt)
  | Some e, Some e0 => to_epoch o e0 e
  end.
End Frames.
