(** * RectModel: RectangularICRSCoordinates and RectangularGCRSCoordinates, the epoch property, the
    distances of LatLongCoordinates and the transforms between these
    (astropysics/coords/coordsys.py 1110-1213, 1350-1402, 1744-1905, 1950-2290).  Floats are reals. *)
From Coq Require Import Reals List Bool.
From Verif Require Import PyBase RealTrig AngleModel SphereModel.
Open Scope R_scope.

(** constants.py 143-150 *)
Definition cmperpc : R := 3085680250000000000.
Definition cmperau : R := 14959788700000.
Definition auperpc : R := 2062648062470963551564734 / 10000000000000000000.
(** the names of units; [Other]: any other text or object but None *)
Inductive uname := Au | Pc | Other.
(** ** A rectangular object: x, y, z; [_epoch]; [_unit], if it has this attribute.  [ICRS] and [GCRS]
    are the two classes. *)
Inductive cls := ICRS | GCRS.
Record rect := Rect { kind : cls; pos : vec; repoch : option R; unit_ : option (option uname) }.
(** _setUnit 1993-2014, 2149-2170; attributes that do not exist raise AttributeError *)
Definition setUnit (r : rect) (val : option uname) : rect * @res unit :=
  let put u v := (Rect (kind r) v (repoch r) (Some u), Ok tt) in
  let p := pos r in
  match val with
  | None => put None p
  | Some v =>
      match unit_ r with
      | None => (r, Raise AttributeError)
      | Some None => match v with Other => (r, Raise ValueError) | _ => put (Some v) p end
      | Some (Some u) =>
          match v, u with
          | Au, Pc => put (Some Au) (V (vx p * auperpc) (vy p * auperpc) (vz p * auperpc))
          | Au, _ => (r, Ok tt)
          | Pc, Au => put (Some Pc) (V (vx p / auperpc) (vy p / auperpc) (vz p / auperpc))
          | Pc, _ => (r, Ok tt)
          | Other, _ => (r, Raise ValueError)
          end
      end
  end.
(** _getUnit 1991 *)
Definition getUnit (r : rect) : @res (option uname) := match unit_ r with Some u => Ok u | None => Raise AttributeError end.
(** __init__ 1966-1970, 2122-2126: _unit is None before the property is set *)
Definition newRect (k : cls) (p : vec) (ep : option R) (u : option uname) : @res rect :=
  match setUnit (Rect k p ep (Some None)) u with (r, Ok _) => Ok r | (_, Raise e) => Raise e | (_, OutOfFuel) => OutOfFuel end.
(** copy.deepcopy and pickle: __getstate__ and __setstate__ 1972-1979, 2128-2135 keep x, y, z and _epoch *)
Definition copied (r : rect) : rect := Rect (kind r) (pos r) (repoch r) None.
(** __add__, __sub__ 1242-1261 with another object that has x, y and z *)
Definition addRect (r : rect) (o : vec) : rect := Rect (kind r) (V (vx (pos r) + vx o) (vy (pos r) + vy o) (vz (pos r) + vz o)) (repoch r) (unit_ (copied r)).
Definition subRect (r : rect) (o : vec) : rect := Rect (kind r) (V (vx (pos r) - vx o) (vy (pos r) - vy o) (vz (pos r) - vz o)) (repoch r) (unit_ (copied r)).
(** transformToEpoch 1988-1989, 2144-2145: the second calls the method of the base class without self *)
Definition transformToEpoch (r : rect) (e : R) : rect * @res unit :=
  match kind r with
  | ICRS => (Rect ICRS (pos r) (Some e) (unit_ r), Ok tt)
  | GCRS => (r, Raise TypeError)
  end.
(** what is given for an epoch: None, 'now', a number or a text that float() reads, any other text *)
Inductive earg := ENone | ENow | ENum (x : R) | EText.
(** _setEpoch 1145-1155; [now] is jd_to_epoch(None) *)
Definition setEpoch (now : R) (r : rect) (a : earg) : rect * @res unit :=
  let go e := match repoch r with None => (Rect (kind r) (pos r) (Some e) (unit_ r), Ok tt) | Some _ => transformToEpoch r e end in
  match a with
  | ENone => (Rect (kind r) (pos r) None (unit_ r), Ok tt)
  | ENow => go now
  | ENum e => go e
  | EText => (r, Raise ValueError)
  end.
(** _getEpochstr, _setEpochstr 1170-1178: the text has a J before the number, so float() does not read it *)
Definition epochstr (r : rect) : option R := repoch r.
Definition setEpochstr (now : R) (r : rect) (t : option R) : rect * @res unit := setEpoch now r EText.
(** ** ICRSCoordinates and GCRSCoordinates: the angles, [_epoch], [_dpc] (a pair of distance and error or None) *)
Record equ := Equ { ekind : cls; ang2 : coord; eepoch : option R; dpc : option (R * R) }.
(** _setDistancepc 1359-1368, _setDistanceau 1385-1397 with None, a number or a pair *)
Inductive darg := DNone | DNum (d : R) | DPair (d e : R).
Definition set_distancepc (q : equ) (a : darg) : equ := Equ (ekind q) (ang2 q) (eepoch q) (match a with DNone => None | DNum d => Some (d, 0) | DPair d e => Some (d, e) end).
Definition pcperau : R := cmperau * (1 / cmperpc).
Definition set_distanceau (q : equ) (a : darg) : equ := Equ (ekind q) (ang2 q) (eepoch q) (match a with DNone => None | DNum d => Some (d * pcperau, 0) | DPair d e => Some (d * pcperau, e * pcperau) end).
(** _getDistancepc, _getDistanceau 1354-1358, 1375-1384 *)
Definition distancepc (q : equ) : option (R * R) := dpc q.
Definition distanceau (q : equ) : option (R * R) := match dpc q with None => None | Some (d, e) => Some (d * (cmperpc * (1 / cmperau)), e * (cmperpc * (1 / cmperau))) end.
(** EquatorialCoordinatesBase.__init__(ra, dec, epoch=, distancepc= or distanceau=) 1814-1891 *)
Definition newEqu (k : cls) (ra dec : R) (ep : option R) (d : equ -> equ) : @res equ :=
  match newCoord (R2 0 360) ra dec None None with
  | Ok c => Ok (d (Equ k c ep None))
  | Raise e => Raise e
  | OutOfFuel => OutOfFuel
  end.
(** _toICRS 2023-2038, _toGCRS 2179-2195 *)
Definition toEqu (r : rect) : @res equ :=
  let p := pos r in
  let n := sqrt (vx p * vx p + vy p * vy p + vz p * vz p) in
  if Req_EM_T n 0 then Raise ZeroDivisionError else
  let dec := deg (asin (vz p / n)) in
  let ra := deg (atan2 (vy p) (vx p)) in
  match getUnit r with
  | Ok None => newEqu (kind r) ra dec (repoch r) (fun q => q)
  | Ok (Some Pc) => newEqu (kind r) ra dec (repoch r) (fun q => set_distancepc q (DNum n))
  | Ok (Some Au) => newEqu (kind r) ra dec (repoch r) (fun q => set_distanceau q (DNum n))
  | Ok (Some Other) => Raise NotImplementedError
  | Raise e => Raise e
  | OutOfFuel => OutOfFuel
  end.
(** _fromICRS 2041-2058, _fromGCRS 2198-2216: distanceau is a pair, and a pair is greater than a number in Python 2 *)
Definition fromEqu (q : equ) : @res rect :=
  let ra := decval (long (ang2 q)) in let dec := decval (lat (ang2 q)) in
  let make n u := newRect (ekind q) (V (n * cos ra * cos dec) (n * sin ra * cos dec) (n * sin dec)) (eepoch q) u in
  match distanceau q, distancepc q with
  | Some _, Some (d, _) => make d (Some Pc)
  | _, _ => make 1 None
  end.
(** _toRectICRS, _fromRectICRS 2219-2282: both subtract the position of the Earth (in au) at the epoch *)
Definition toOther (earth : R -> vec) (k : cls) (r : rect) : @res rect :=
  match getUnit r with
  | Raise e => Raise e
  | OutOfFuel => OutOfFuel
  | Ok u =>
      match repoch r with
      | None => Raise ValueError
      | Some e =>
          let p := pos r in let q := earth e in
          match u with
          | None => newRect k p (Some e) None
          | Some Au => newRect k (V (vx p - vx q) (vy p - vy q) (vz p - vz q)) (Some e) (Some Au)
          | Some Pc => newRect k (V (vx p - vx q / auperpc) (vy p - vy q / auperpc) (vz p - vz q / auperpc)) (Some e) (Some Pc)
          | Some Other => Raise NotImplementedError
          end
      end
  end.
(** EquatorialCoordinatesBase.convert 1893-1898 and EpochalLatLongCoordinates.convert 1779-1784 along the
    registered transforms above: from one class to rectangular, to the other rectangular, to the other class *)
Definition convert (earth : R -> vec) (k : cls) (q : equ) : @res equ :=
  match fromEqu q with
  | Ok r1 => match toOther earth k r1 with
             | Ok r2 => match toEqu r2 with
                        | Ok q2 => Ok (Equ k (ang2 q2) (eepoch q) (match dpc q with None => dpc q2 | Some d => Some d end))
                        | x => x end
             | Raise e => Raise e | OutOfFuel => OutOfFuel end
  | Raise e => Raise e | OutOfFuel => OutOfFuel
  end.
(** GCRSCoordinates.transformToEpoch 2074-2089 *)
Definition gcrs_to_epoch (earth : R -> vec) (q : equ) (e : R) : equ * @res unit :=
  match convert earth ICRS q with
  | Ok c1 => match convert earth GCRS (Equ ICRS (ang2 c1) (Some e) (dpc c1)) with
             | Ok c2 => (Equ GCRS (ang2 c2) (Some e) (dpc c2), Ok tt)
             | Raise x => (q, Raise x) | OutOfFuel => (q, OutOfFuel) end
  | Raise x => (q, Raise x) | OutOfFuel => (q, OutOfFuel)
  end.
