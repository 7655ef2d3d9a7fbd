(** * EphModel: astropysics/coords/ephems.py

    Numbers are reals. *)
From Coq Require Import List Bool ZArith Reals Lra Lia.
From Verif Require Import PyBase RealTrig.
Import ListNotations.
Open Scope R_scope.

(** ** EphemerisObject 83-288.  [C]: coordinate objects, [Sys]: coordinate classes, [cal]: datetimes and tuples, with [caljd] = calendar_to_jd; [now]: the present JD *)
Section Object.
Context {C Sys cal : Type}.
Variable caljd : cal -> @res R.
Variable now : R.
(** what _jdhook computes from the new jd and keeps *)
Variable hook : R -> R.
(** _getCoordObj, from the jd and what the hook kept; [convert]: the method convert of coordinates *)
Variable coord : R -> R -> @res C.
Variable convert : Sys -> C -> @res C.
Inductive date := DJd (x : R) | DCal (c : cal) | DNow.
Inductive warning := Below (x : R) | Above (x : R).
Record eph := Eph { ejd : R; kept : R; vrange : option R * option R }.
(** __init__ 109-127 and _setValidjdrange 173-204 *)
Definition jd2000 : R := 2451545.
Definition to_jd (d : date) : @res R := match d with DJd x => Ok x | DCal c => caljd c | DNow => Ok now end.
Definition opt_jd (d : option date) : @res (option R) := match d with None => Ok None | Some d => match to_jd d with Ok x => Ok (Some x) | Raise e => Raise e | OutOfFuel => OutOfFuel end end.
Definition newEph (r : option (option date * option date)) : @res eph :=
  match r with
  | None => Ok (Eph jd2000 (hook jd2000) (None, None))
  | Some (a, b) => match opt_jd a with
      | Ok a => match opt_jd b with Ok b => Ok (Eph jd2000 (hook jd2000) (a, b)) | Raise e => Raise e | OutOfFuel => OutOfFuel end
      | Raise e => Raise e | OutOfFuel => OutOfFuel
      end
  end.
(** _setJd 131-151 *)
Definition warn_of (r : option R * option R) (x : R) : list warning :=
  let above := match snd r with Some hi => if Rlt_dec hi x then [Above x] else [] | None => [] end in
  match fst r with Some lo => if Rlt_dec x lo then [Below x] else above | None => above end.
Definition setJd (d : date) (s : eph) : @res (eph * list warning) :=
  match to_jd d with
  | Ok x => Ok (Eph x (hook x) (vrange s), warn_of (vrange s) x)
  | Raise e => Raise e | OutOfFuel => OutOfFuel
  end.
(** __call__ 206-262: no dates, one (a number or 'now') or several.  The result, with the state after it and the warnings; [finally] 251-252 *)
Inductive when := WHere | WOne (x : option R) | WMany (l : list date).
Fixpoint call_loop (l : list date) (s : eph) : eph * list warning * @res (list C) :=
  match l with
  | [] => (s, [], Ok [])
  | d :: l =>
      match setJd d s with
      | Raise e => (s, [], Raise e) | OutOfFuel => (s, [], OutOfFuel)
      | Ok (s1, w1) =>
          match coord (ejd s1) (kept s1) with
          | Raise e => (s1, w1, Raise e) | OutOfFuel => (s1, w1, OutOfFuel)
          | Ok c => match call_loop l s1 with (s2, w2, r) => (s2, w1 ++ w2, match r with Ok cs => Ok (c :: cs) | x => x end) end
          end
      end
  end.
Fixpoint convert_all (y : Sys) (l : list C) : @res (list C) :=
  match l with [] => Ok [] | c :: l => match convert y c with Ok c' => match convert_all y l with Ok l' => Ok (c' :: l') | x => x end | Raise e => Raise e | OutOfFuel => OutOfFuel end end.
Inductive answer := One (c : C) | Many (l : list C).
Definition call (w : when) (y : option Sys) (s : eph) : eph * list warning * @res answer :=
  let finish single (r : @res (list C)) : @res answer :=
    match r with
    | Raise e => Raise e | OutOfFuel => OutOfFuel
    | Ok l => match (match y with Some y => convert_all y l | None => Ok l end) with
        | Ok l' => if single : bool then match l' with c :: _ => Ok (One c) | [] => Raise IndexError end else Ok (Many l')
        | Raise e => Raise e | OutOfFuel => OutOfFuel
        end
    end in
  match w with
  | WHere => (s, [], finish true (match coord (ejd s) (kept s) with Ok c => Ok [c] | Raise e => Raise e | OutOfFuel => OutOfFuel end))
  | _ =>
      let '(single, l) := match w with WOne (Some x) => (true, [DJd x]) | WOne None => (true, [DNow]) | WMany l => (false, l) | WHere => (true, []) end in
      let '(s1, w1, r) := call_loop l s in
      match setJd (DJd (ejd s)) s1 with
      | Ok (s2, w2) => (s2, w1 ++ w2, finish single r)
      | Raise e => (s1, w1, Raise e) | OutOfFuel => (s1, w1, OutOfFuel)
      end
  end.
(** ** get_solar_system_ephems 775-811: the registry holds objects and classes (here: what a new object of the class is).  Without dates a (new or copied) object is returned *)
Inductive entry := Obj (s : eph) | Cls (s0 : eph).
Definition registry := list (nat * entry).
Fixpoint find_entry (n : nat) (g : registry) : option entry := match g with [] => None | (k, e) :: g => if Nat.eqb k n then Some e else find_entry n g end.
Fixpoint put_entry (n : nat) (e : entry) (g : registry) : registry := match g with [] => [] | (k, f) :: g => if Nat.eqb k n then (k, e) :: g else (k, f) :: put_entry n e g end.
Definition get_object (g : registry) (n : nat) : @res eph := match find_entry n g with Some (Obj s) => Ok s | Some (Cls s) => Ok s | None => Raise KeyError end.
Definition get_coords (g : registry) (n : nat) (w : when) (y : option Sys) : registry * list warning * @res answer :=
  match find_entry n g with
  | None => (g, [], Raise KeyError)
  | Some (Obj s) => match call w y s with (s', ws, r) => (put_entry n (Obj s') g, ws, r) end
  | Some (Cls s) => match call w y s with (_, ws, r) => (g, ws, r) end
  end.
End Object.
Arguments eph : clear implicits.

(** ** ProperMotionObject 290-391.  [asecperrad], [secperyr], [cmperpc]: constants.py 141-149 *)
Section ProperMotion.
Variables asecperrad secperyr cmperpc : R.
Record pm := PM { ra0 : R; dec0 : R; dra : R; ddec : R; jd0 : R; distpc0 : option R; rv : R }.
(** drastar 331-348 *)
Definition drastar (p : pm) : R := dra p * cos (rad (dec0 p)).
Definition set_drastar (v : R) (p : pm) : pm := PM (ra0 p) (dec0 p) (v / cos (rad (dec0 p))) (ddec p) (jd0 p) (distpc0 p) (rv p).
(** _jdhook 379-380 *)
Definition dyr (p : pm) (newjd : R) : R := (newjd - jd0 p) / 365.25.
(** ra, dec, distancepc 350-377, from the years kept by the hook *)
Definition pm_ra (p : pm) (y : R) : R := ra0 p + deg (y * dra p / asecperrad).
Definition pm_dec (p : pm) (y : R) : R := dec0 p + deg (y * ddec p / asecperrad).
Definition pm_dist (p : pm) (y : R) : option R := match distpc0 p with None => None | Some d => Some (d + y * rv p * secperyr * 100000 / cmperpc) end.
(** _getCoordObj 382-390, jd_to_epoch of obstools.py 497: ra, dec, distance and epoch *)
Definition pm_coord (p : pm) (jd y : R) : @res (R * R * option R * R) := Ok (pm_ra p y, pm_dec p y, pm_dist p y, 2000 + (jd - 2451545) / 365.25).
End ProperMotion.

(** ** KeplerianObject 393-771 *)
(** _makeElement 513-524: a function, a sequence of coefficients or something else; np.polyval takes the highest coefficient first *)
Inductive elem_in := EFun (f : R -> R) | ESeq (l : list R) | EOther.
Definition polyval (l : list R) (x : R) : R := fold_left (fun acc c => acc * x + c) l 0.
Definition makeElement (v : elem_in) : @res (R -> R) :=
  match v with
  | EFun f => Ok f
  | ESeq [a; b] => Ok (fun T => a + b * T)
  | ESeq l => Ok (fun T => polyval (rev l) T)
  | EOther => Raise TypeError
  end.
(** the angles that may be missing are optional; [bcsf]: the correction of M *)
Record kep := Kep { ka : R -> R; ke : R -> R; ki : R -> R; kLan : R -> R; kL : option (R -> R); kLp : option (R -> R); kap : option (R -> R); kM : option (R -> R); bcsf : option (R * R * R * R); etol : option R }.
Definition bind {A B} (r : @res A) (f : A -> @res B) : @res B := match r with Ok a => f a | Raise e => Raise e | OutOfFuel => OutOfFuel end.
Definition need (v : option elem_in) : @res unit := match v with Some _ => Ok tt | None => Raise TypeError end.
Definition elem (v : option elem_in) : @res (R -> R) := match v with Some v => makeElement v | None => Raise TypeError end.
(** __init__ 459-507 (Etol: a keyword with a default) *)
Definition newKepler (a e i Lan L Lp ap M : option elem_in) (tol : option (option R)) : @res kep :=
  let tol := match tol with Some t => t | None => Some 23.43928 end in
  bind (need a) (fun _ => bind (need e) (fun _ => bind (need i) (fun _ => bind (need Lan) (fun _ =>
  bind (elem a) (fun fa => bind (elem e) (fun fe => bind (elem i) (fun fi => bind (elem Lan) (fun fl =>
  match L, Lp, ap, M with
  | Some _, Some _, None, None => bind (elem L) (fun l => bind (elem Lp) (fun p => Ok (Kep fa fe fi fl (Some l) (Some p) None None None tol)))
  | Some _, Some _, _, _ => Raise TypeError
  | None, None, Some _, Some _ => bind (elem ap) (fun w => bind (elem M) (fun m => Ok (Kep fa fe fi fl None None (Some w) (Some m) None tol)))
  | _, _, Some _, Some _ => Raise TypeError
  | _, _, _, _ => Ok (Kep fa fe fi fl None None None None None tol)
  end)))))))).
(** L, Lp, M, ap 554-605: recursive properties; [fuel] bounds the depth of the calls, t: what _jdhook 509-511 keeps *)
Definition centuries (newjd : R) : R := (newjd - jd2000) / 36525.
Inductive angle := AL | ALp | AM | Aap.
Fixpoint get_angle (fuel : nat) (k : kep) (t : R) (x : angle) : @res R :=
  match fuel with
  | O => OutOfFuel
  | S f =>
      match x with
      | AL => match kL k with Some g => Ok (g t) | None => bind (get_angle f k t AM) (fun m => bind (get_angle f k t ALp) (fun p => Ok (m + p))) end
      | ALp => match kLp k with Some g => Ok (g t) | None => bind (get_angle f k t Aap) (fun w => Ok (w + kLan k t)) end
      | AM => match kM k with Some g => Ok (g t)
              | None => bind (get_angle f k t AL) (fun l => bind (get_angle f k t ALp) (fun p =>
                  match bcsf k with Some (b, c, s, fr) => Ok (l - p + b * t * t + c * cos (fr * t) + s * sin (fr * t)) | None => Ok (l - p) end)) end
      | Aap => match kap k with Some g => Ok (g t) | None => bind (get_angle f k t ALp) (fun p => Ok (p - kLan k t)) end
      end
  end.
(** the depth that the properties of a complete object need *)
Definition angle_of (k : kep) (t : R) (x : angle) : @res R := get_angle 10 k t x.
(** E 617-638 for M in degrees; [solve tol E0 M e]: scipy's fsolve for Kepler's equation, started at E0 *)
Section Anomaly.
Variable solve : option R -> R -> R -> R -> R.
Definition reduced (M : R) : R := rad (pymod (M + 180) 360 - 180).
Definition start (M e : R) : R := M + e * sin M * (1 + e * cos M).
Definition ecc (tol : option R) (Mdeg e : R) : R :=
  let M := reduced Mdeg in
  let E0 := start M e in
  let Er := match tol with Some z => if Req_EM_T z 0 then E0 else solve tol E0 M e | None => solve tol E0 M e end in
  pymod (deg Er) 360.
(** nu 640-654, d 656-667, dperi, dapo, P 669-688, from the eccentric anomaly in degrees *)
Definition nu (e E : R) : R := let Er := rad E in deg (atan2 (sqrt (1 - e * e) * sin Er) (cos Er - e)).
Definition dist (a e E : R) : R := a * (1 - e * e) / (1 + e * cos (rad (nu e E))).
Definition dperi (a e : R) : R := a * (1 - e).
Definition dapo (a e : R) : R := a * (1 + e).
Definition period (a : R) : R := Rpower a 1.5.
(** _getCoordObj 691-712: x, y, z before outtransfunc *)
Definition place (a e E apdeg Landeg ideg : R) : R * R * R :=
  let Er := rad E in
  let xp := a * (cos Er - e) in
  let yp := a * sqrt (1 - e * e) * sin Er in
  let w := rad apdeg in let o := rad Landeg in let i := rad ideg in
  ((cos w * cos o - sin w * sin o * cos i) * xp + (- sin w * cos o - cos w * sin o * cos i) * yp,
   (cos w * sin o + sin w * cos o * cos i) * xp + (- sin w * sin o + cos w * cos o * cos i) * yp,
   (sin w * sin i) * xp + (cos w * sin i) * yp).
Definition position (k : kep) (t : R) : @res (R * R * R) :=
  bind (angle_of k t AM) (fun M => bind (angle_of k t Aap) (fun w => Ok (place (ka k t) (ke k t) (ecc (etol k) M (ke k t)) w (kLan k t) (ki k t)))).
End Anomaly.
(** _ecl_to_icrs 841-855 *)
Definition tilt (p : R * R * R) : R * R * R :=
  let '(x, y, z) := p in
  (x, 0.91748213920828747 * y - 0.39777697800876388 * z, 0.39777697800876388 * y + 0.91748213920828747 * z).
(** getPhase 730-771, from the places of the object, the viewer and the light; Moon.getPhase 908-931 from the geocentric place of the Moon and the heliocentric one of the Earth.  [None]: ZeroDivisionError *)
Definition phase (p v i : R * R * R) : option R :=
  let '(x, y, z) := p in let '(xv, yv, zv) := v in let '(xi, yi, zi) := i in
  let '(xR, yR, zR) := (x - xv, y - yv, z - zv) in
  let '(xs, ys, zs) := (xv - xi, yv - yi, zv - zi) in
  let '(xr, yr, zr) := (x - xi, y - yi, z - zi) in
  let r := sqrt (xr * xr + yr * yr + zr * zr) in
  let R' := sqrt (xR * xR + yR * yR + zR * zR) in
  let s := sqrt (xs * xs + ys * ys + zs * zs) in
  if Req_EM_T (2 * r * R') 0 then None else Some ((1 + (r * r + R' * R' - s * s) / (2 * r * R')) / 2).
Definition moon_phase (g e : R * R * R) : option R :=
  let '(xg, yg, zg) := g in let '(xe, ye, ze) := e in
  let '(xm, ym, zm) := (xe + xg, ye + yg, ze + zg) in
  let r := sqrt (xm * xm + ym * ym + zm * zm) in
  let R' := sqrt (xg * xg + yg * yg + zg * zg) in
  let s := sqrt (xe * xe + ye * ye + ze * ze) in
  if Req_EM_T (2 * r * R') 0 then None else Some ((1 + (r * r + R' * R' - s * s) / (2 * r * R')) / 2).

(** ** Earth 996-1123.  One coordinate of a series: triples of coefficients (a, b, c) for the powers 0, 1 and 2 of t *)
Definition term := (R * R * R)%type.
Fixpoint sum (f : term -> R) (l : list term) : R := match l with [] => 0 | x :: l => f x + sum f l end.
(** _compute_earth_series 996-1039 *)
Definition series_pos (t : R) (c0 c1 c2 : list term) : R :=
  sum (fun '(a, b, c) => a * cos (b + c * t)) c0 + sum (fun '(a, b, c) => a * t * cos (b + c * t)) c1 + sum (fun '(a, b, c) => a * cos (b + c * t) * t * t) c2.
Definition series_vel (t : R) (c0 c1 c2 : list term) : R :=
  sum (fun '(a, b, c) => - a * c * sin (b + c * t)) c0 + sum (fun '(a, b, c) => a * (cos (b + c * t) - c * t * sin (b + c * t))) c1 + sum (fun '(a, b, c) => a * t * (2 * cos (b + c * t) - c * t * sin (b + c * t))) c2.
Record coeffs := Coeffs { hs : nat -> nat -> list term; bs : nat -> nat -> list term; mat : nat -> nat -> R }.
(** earth_pos_vel 1077-1123: the i-th coordinate of position and velocity.  hs j i, bs j i: heliocentric and barycentric series of the power j for the coordinate i *)
Section EarthPos.
Variables aupercm secperyr : R.
Definition ecl_pos (k : coeffs) (bary : bool) (t : R) (i : nat) : R :=
  let p := series_pos t (hs k 0 i) (hs k 1 i) (hs k 2 i) in if bary then p + series_pos t (bs k 0 i) (bs k 1 i) (bs k 2 i) else p.
Definition ecl_vel (k : coeffs) (bary : bool) (t : R) (i : nat) : R :=
  let p := series_vel t (hs k 0 i) (hs k 1 i) (hs k 2 i) in if bary then p + series_vel t (bs k 0 i) (bs k 1 i) (bs k 2 i) else p.
Definition rotate (k : coeffs) (v : nat -> R) (i : nat) : R := mat k i 0 * v 0%nat + mat k i 1 * v 1%nat + mat k i 2 * v 2%nat.
Definition earth_pos (k : coeffs) (bary : bool) (jd : R) (i : nat) : R := rotate k (ecl_pos k bary ((jd - jd2000) / 365.25)) i.
Definition earth_vel (k : coeffs) (bary kms : bool) (jd : R) (i : nat) : R :=
  let v := rotate k (ecl_vel k bary ((jd - jd2000) / 365.25)) i in if kms then v * (/ 100000 / aupercm / secperyr) else v.
End EarthPos.
