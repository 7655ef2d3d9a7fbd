(** * AngleModel: AngularCoordinate and AngularSeparation (astropysics/coords/coordsys.py 95-727)
    Floats are real numbers.  Angles are in radians unless said otherwise. *)
From Coq Require Import Reals ZArith List Bool.
From Verif Require Import PyBase RealTrig.
Open Scope R_scope.

(** The slots [_decval] and [_range]; a range is (low, up, cycle) in radians. *)
Record ang := Ang { decval : R; range : option (R * R * option R) }.

(** _checkRange, coordsys.py 329-350. *)
Definition checkRange (r : option (R * R * option R)) (x : R) : @res R :=
  match r with
  | None => Ok x
  | Some (low, up, None) => if Rle_dec low x then if Rle_dec x up then Ok x else Raise ValueError else Raise ValueError
  | Some (low, up, Some cycle) =>
      if Req_EM_T (up - low) 0 then Raise ZeroDivisionError (* low/(low-up), or % (up-low) *)
      else if Rlt_dec 0 cycle then
        let offset := low / (low - up) - 1 / 2 in
        Ok ((up - low) * (asin (sin (PI * (2 * x / cycle + offset))) / PI + 1 / 2) + low)
      else Ok (pymod (x - low) (up - low) + low)
  end.

(** Setters, 294-327.  A raising call leaves the object as it was. *)
Definition setRad (a : ang) (x : R) : ang * @res unit :=
  match checkRange (range a) x with
  | Ok v => (Ang v (range a), Ok tt) | Raise e => (a, Raise e) | OutOfFuel => (a, OutOfFuel)
  end.
Definition setDeg (a : ang) (d : R) := setRad a (d * PI / 180).
Definition setHours (a : ang) (h : R) := setRad a (h * PI / 12).
Definition getDeg (a : ang) : R := decval a * 180 / PI.
Definition getHours (a : ang) : R := decval a * 12 / PI.
(** _setDegminsec 258-263: the sign is applied after the range check. *)
Definition setDms (a : ang) (d m s : R) : ang * @res unit :=
  match setDeg a (Rabs d + Rabs m / 60 + Rabs s / 3600) with
  | (a', Ok _) => (if Rlt_dec d 0 then Ang (- decval a') (range a') else a', Ok tt)
  | r => r
  end.
(** _setHrsminsec 277-280 *)
Definition setHms (a : ang) (h m s : R) : ang * @res unit := setDeg a (15 * (h + m / 60 + s / 3600)).
(** _getDegminsec 264-270, _getHrsminsec 281-287 *)
Definition getDms (a : ang) : Z * Z * R :=
  let full := Rabs (getDeg a) in
  let d := pyint full in
  let frac := full - IZR d in
  let m := pyint (frac * 60) in
  let s := frac * 3600 - IZR m * 60 in
  ((if Rlt_dec (getDeg a) 0 then - d else d)%Z, m, s).
Definition getHms (a : ang) : Z * Z * R :=
  let f := getDeg a / 15 in
  let h := pyint f in
  let ms := f - IZR h in
  let m := pyint (ms * 60) in
  (h, m, ms * 3600 - IZR m * 60).

(** _setRange 351-380; the argument is None, a 2-sequence, a 3-sequence (degrees), or
    a sequence of another length. *)
Inductive rangearg := RNone | R2 (low up : R) | R3 (low up : R) (cycle : option R) | RBad.
Definition applyRange (a : ang) (r : option (R * R * option R)) : ang * @res unit :=
  match checkRange r (decval a) with
  | Ok v => (Ang v r, Ok tt)
  | Raise ValueError => (a, Raise ValueError)     (* rolled back *)
  | Raise e => (Ang (decval a) r, Raise e)         (* other exceptions are not caught: the range stays *)
  | OutOfFuel => (a, OutOfFuel)
  end.
Definition setRange (a : ang) (r : rangearg) : ang * @res unit :=
  let go3 low up cycle :=
    if Rlt_dec up low then (a, Raise ValueError)
    else applyRange a (Some (rad low, rad up, option_map rad cycle)) in
  match r with
  | RNone => applyRange a None
  | R2 low up => go3 low up (if Req_EM_T (up - low) 360 then Some 0 else None)
  | R3 low up c => go3 low up c
  | RBad => (a, Raise TypeError)
  end.

(** Assignments made to an AngularCoordinate. *)
Inductive aop := ODeg (x : R) | ORad (x : R) | OHours (x : R) | OHms (h m s : R) | ODms (d m s : R) | ORange (r : rangearg).
Definition astep (a : ang) (o : aop) : ang * @res unit :=
  match o with
  | ODeg x => setDeg a x | ORad x => setRad a x | OHours x => setHours a x
  | OHms h m s => setHms a h m s | ODms d m s => setDms a d m s | ORange r => setRange a r
  end.
Definition arun (a : ang) (l : list aop) : ang := fold_left (fun a o => fst (astep a o)) l a.

(** ** Strings, 458-596.  A printed angle is the sequence of its fields: sign, whole
    degrees/hours, minutes and seconds in units of 10^-n (the digits printed by a
    '%.nf' format, to nearest even). *)
Definition rneR (x : R) : Z :=
  let f := rfloor x in
  if Rlt_dec (x - IZR f) (1 / 2) then f else if Rlt_dec (1 / 2) (x - IZR f) then (f + 1)%Z
  else if Z.even f then f else (f + 1)%Z.
Definition ten (n : nat) : Z := (10 ^ Z.of_nat n)%Z.
Record printed := P { p_neg : bool; p_whole : Z; p_min : Z; p_sec : Z }.
(** getDmsStr 481-510 *)
Definition dmsStr (n : nat) (a : ang) : printed :=
  let '(d, m, s) := getDms a in
  let su := rneR (s * IZR (ten n)) in
  let '(d, m, su) := if (60 * ten n <=? su)%Z
                     then (if (m + 1 =? 60)%Z then ((d + 1)%Z, 0%Z, 0%Z) else (d, (m + 1)%Z, 0%Z))
                     else (d, m, su) in
  P (if Rlt_dec (decval a) 0 then true else false) (Z.abs d) m su.
(** getHmsStr 555-574; all fields keep their own sign. *)
Definition hmsStr (n : nat) (a : ang) : Z * Z * Z :=
  let '(h, m, s) := getHms a in
  let su := rneR (s * IZR (ten n)) in
  if (60 * ten n <=? su)%Z
  then let su := (su - 60 * ten n)%Z in
       if (m + 1 =? 60)%Z then ((if (h + 1 =? 24)%Z then 0 else h + 1)%Z, 0%Z, su) else (h, (m + 1)%Z, su)
  else (h, m, su).

(** ** Arithmetic, 416-455.  Results are new objects without range. *)
Definition add (a b : ang) : ang := Ang (decval a + decval b) None.
Definition mul (a : ang) (x : R) : ang := Ang (decval a * x) None.
(** [a / x]: __div__ without, __truediv__ with [from __future__ import division] *)
Definition div_classic (a : ang) (x : R) : @res ang := if Req_EM_T x 0 then Raise ZeroDivisionError else Ok (Ang (decval a / x) None).
Definition div_true (a : ang) (x : R) : @res ang := if Req_EM_T x 0 then Raise ZeroDivisionError else Ok (Ang (IZR (rfloor (decval a / x))) None).
(** AngularSeparation.__init__ 608-637: numbers or objects; the resulting [_decval]. *)
Inductive separg := SNum (x : R) | SAng (a : ang).
Definition sepval (s : separg) : R := match s with SNum x => x | SAng a => decval a end.
Definition sep1 (s : separg) : ang := Ang (rad (sepval s)) None.
Definition sep2 (s e : separg) : ang := Ang (rad (sepval e - sepval s)) None.
(** __sub__ 425-433 *)
Definition sub (a b : ang) : ang := sep2 (SNum (deg (decval b))) (SNum (deg (decval a))).
(** separation3d 694-727 without redshifts *)
Definition separation3d (s : ang) (d1 d2 : R) : R := sqrt (d1 * d1 + d2 * d2 - 2 * d1 * d2 * cos (decval s)).

(** AngularCoordinate.__init__ 188-256 for the inputs that are not strings *)
Inductive ainit := INone | INum (x : R) | ITuple (a b c : R) | ICopy (a : ang).
Definition newAng (i : ainit) (sghms radians : bool) (r : rangearg) : @res ang :=
  let base := match i with
    | INone => Ok (Ang 0 None)
    | INum x => Ok (Ang (if radians then x else rad x) None)
    | ITuple a b c => Ok (fst (if sghms then setHms (Ang 0 None) a b c else setDms (Ang 0 None) a b c))
    | ICopy a => Ok a
    end in
  match i, base with
  | ICopy a, _ => Ok a            (* returns before the range is set *)
  | _, Ok a => match setRange a r with (a', Ok _) => Ok a' | (_, Raise e) => Raise e | (_, OutOfFuel) => OutOfFuel end
  | _, _ => base
  end.
