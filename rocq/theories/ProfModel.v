(** * ProfModel: the astronomical models of astropysics/models.py

    Over the reals.  The fitting and calling machinery of the pymodelfit package (FunctionModel1DAuto) is not part of the code base: a model is its function [f] with its parameters as attributes.  [inv] and the numerical
    integrals of that package are represented by what they compute: a solution of the equation, the Riemann integral. *)
From Coq Require Import List Bool Reals Lra.
From Coquelicot Require Import Coquelicot.
From Verif Require Import PyBase SpecModel.
Import ListNotations.
Open Scope R_scope.

(** b**e for b >= 0: 0**e is 0 for e > 0 (the models raise nothing else to a power that is not an integer) *)
Definition pw (b e : R) : R := if Rlt_dec 0 b then Rpower b e else 0.

(** ** BlackbodyModel 53-257 *)
Section Blackbody.
Variables c h kb ergperev : R.
(** _flambda 77-79, _fnu 81-83, _fen 85-86 (which does not convert x), f 65-75 *)
Definition flambda (A T x : R) : R := A * 2 * h * c * c * / x ^ 5 / (exp (h * c / (kb * T * x)) - 1).
Definition fnu (A T x : R) : R := A * 2 * h / c / c * x ^ 3 / (exp (h * x / (kb * T)) - 1).
Definition fen (A T x : R) : R := fnu A T x / h.
Definition blackbody (u : unit_) (A T x : R) : R :=
  let y := x * scale ergperev u in (match ptype u with Wav => flambda A T y | Freq => fnu A T y | En => fen A T y end) * scale ergperev u.
(** wienDisplacementLaw 197-236: the peak for a temperature (peakval None), the temperature for a peak *)
Definition wien_peak (u : unit_) (T : R) : R :=
  match ptype u with Wav => 0.28977685 / T / scale ergperev u | Freq => 2.821439 * kb * T / h / scale ergperev u | En => 2.821439 * T / h / scale ergperev u end.
Definition wien_temp (u : unit_) (peak : R) : R :=
  match ptype u with Wav => 0.28977685 / peak / scale ergperev u | Freq => peak * h / 2.821439 / kb / scale ergperev u | En => peak * h / 2.821439 / scale ergperev u end.
(** the peak property 176-195 *)
Definition get_peak (u : unit_) (A T : R) : @res R :=
  match ptype u with
  | Wav => Ok (blackbody u A T (0.28977685 / T / scale ergperev u))
  | Freq => Ok (blackbody u A T (2.821439 / h * kb * T / scale ergperev u))
  | En => Raise NotImplementedError
  end.
(** setting it: the new A *)
Definition set_peak (u : unit_) (T p : R) : @res R := match get_peak u 1 T with Ok q => Ok (p / q) | Raise e => Raise e | OutOfFuel => OutOfFuel end.
(** setFlux 119-130 with phot.intensity_to_flux, getFluxRadius 162-167, getFluxDistance 169-174, getFlux 132-160 (the new A; without radius and distance A stays) *)
Definition set_flux (radius distance : R) : R := let ratio := radius / distance in PI * ratio * ratio.
Definition flux_radius (A distance : R) : R := sqrt (A * distance * distance / PI).
Definition flux_distance (A radius : R) : R := sqrt (PI * radius * radius / A).
Definition get_flux (u : unit_) (A T x : R) (radius distance : option R) : R * R :=
  let A' := match radius, distance with None, None => A | Some r, None => set_flux r (flux_distance A r) | None, Some d => set_flux (flux_radius A d) d | Some r, Some d => set_flux r d end in
  (A', blackbody u A' T x).
(** stephanBoltzmannLaw 245-253 *)
Definition stefan_boltzmann (T area : R) : R := area * (2 * PI ^ 5 * kb ^ 4 * / h ^ 3 * / c ^ 2 / 15) * T ^ 4.
End Blackbody.

(** ** densities *)
(** BurkertModel 271-272, EinastoModel 300-301, HernquistModel 476-477, JaffeModel 509-510, NFWModel 536-539, PlummerModel 1165-1166 *)
Definition burkert (rho0 r0 r : R) : R := rho0 * r0 ^ 3 / ((r + r0) * (r ^ 2 + r0 ^ 2)).
Definition einasto (A rs alpha r : R) : R := A * exp (- 2 / alpha * (pw (r / rs) alpha - 1)).
Definition hernquist (A r0 r : R) : R := A / 2 / PI * (r0 / r) * / (r + r0) ^ 3.
Definition jaffe (A rj r : R) : R := A / 4 / PI * rj * / r ^ 2 * / (r + rj) ^ 2.
Definition nfw (rho0 rc r : R) : R := let x := r / rc in rho0 / (x * (1 + x) ^ 2).
Definition plummer (rp M r : R) : R := 3 * M / (4 * PI * rp ^ 3) * Rpower (1 + (r / rp) ^ 2) (- 5 / 2).

(** ** NFWModel 513-1055 *)
Record halo := Halo { rho0 : R; rc : R; saved_c : option R }.
(** integrateSpherical 560-571: with a lower bound that is not 0 the one-dimensional integral of the package is called *)
Definition integrateSpherical (m : halo) (lower upper : R) : R :=
  if Req_EM_T lower 0 then let x := upper / rc m in 4 * PI * rho0 m * rc m ^ 3 * (ln (1 + x) - x / (1 + x)) else RInt (nfw (rho0 m) (rc m)) lower upper.
(** getV 573-603, getVmax 609-622.  [GMspc]: the constant *)
Definition getV (GMspc : R) (m : halo) (r : R) : R := sqrt (GMspc / 1000 * integrateSpherical m 0 r / r).
Definition xmin : R := 2.16258158706460983485655366960326457351.
Definition getVmax (GMspc : R) (m : halo) : R * R := let r := rc m * xmin in (getV GMspc m r, r).
(** getRhoMean 681-691 *)
Definition getRhoMean (m : halo) (r : R) : R := integrateSpherical m 0 r / (4 * PI * (r * 1000) ^ 3 / 3).
(** setC 624-665.  [rhov]: the critical density times 1e-18 times the virial overdensity; [current]: the present virial mass (getMv), used when neither is given *)
Definition setC (m : halo) (c : R) (Rvir Mvir : option R) (rhov current : R) : halo :=
  let '(Rv, Mv, sv) := match Rvir, Mvir with
    | None, _ => let M := match Mvir with Some M => M | None => current end in (/ 1000 * Rpower (3 * M / (4 * PI * rhov)) (1 / 3), M, saved_c m)
    | Some Rv, None => (Rv, 4 * PI * (Rv * 1000) ^ 3 / 3 * rhov, saved_c m)
    | Some Rv, Some M => (Rv, M, Some c)
    end in
  let a0 := integrateSpherical (Halo 1 (Rv / c) sv) 0 Rv in Halo (Mv / a0) (Rv / c) sv.
(** getC 667-679, getRv 712-743 and getMv 747-752.  [rv] is the virial radius found by [inv]: a solution of getRhoMean = rhov *)
Definition virial (m : halo) (rhov rv : R) : Prop := 0 < rv /\ getRhoMean m rv = rhov.
Definition getC (m : halo) (rv : R) : R := match saved_c m with Some c => c | None => rv / rc m end.
Definition getMv (m : halo) (rv : R) : R := integrateSpherical m 0 rv.

(** the scalings 758-930; [hub], [omega], [dv]: the h, omega and deltavir(z) of the current cosmology, [H0] the constant *)
Section Scalings.
Variables hub omega dv z : R.
Definition Rvir_to_Mvir (Rvir : R) : R := 10 ^ 12 / hub * (omega * dv / 97.2) * (Rvir * hub * (1 + z) / 203.4) ^ 3.
Definition Mvir_to_Rvir (Mvir : R) : R := 203.4 / hub * Rpower (omega * dv / 97.2) (- 1 / 3) * Rpower (Mvir * hub / 10 ^ 12) (1 / 3) / (1 + z).
Definition Mvir_to_Vvir (Mvir : R) : R := 143.8 * Rpower (omega * dv / 97.2) (1 / 6) * Rpower (Mvir * hub / 10 ^ 12) (1 / 3) * sqrt (1 + z).
Definition Vvir_to_Mvir (Vvir : R) : R := / sqrt (omega * dv / 97.2) * Rpower (1 + z) (- 3 / 2) * 10 ^ 12 * (Vvir / 143.8) ^ 3 / hub.
Definition Mvir_to_Cvir (H0 Mvir : R) : R := let cvir := 9.6 * Rpower (Mvir * (H0 / 72) / 10 ^ 13) (- (13 / 100)) * / (1 + z) in if Rlt_dec 4 cvir then cvir else 4.
(** the name c is not defined in this function *)
Definition Cvir_to_Mvir (Cvir : R) : @res R := Raise NameError.
End Scalings.
Definition Vvir_to_Vmax (v : R) : R := Rpower (v / 0.468) (1 / 1.1).
Definition Vmax_to_Vvir (v : R) : R := 0.468 * Rpower v 1.1.
Definition Mvir_to_Vmax (hub omega dv z M : R) : R := Vvir_to_Vmax (Mvir_to_Vvir hub omega dv z M).
Definition Vmax_to_Mvir (hub omega dv z V : R) : R := Vvir_to_Mvir hub omega dv z (Vmax_to_Vvir V).
(** Vmax_to_Rvir 955-969: the mass is taken at redshift 0 ([dv0]) *)
Definition Vmax_to_Rvir (hub omega dv0 dv z V : R) : R := Mvir_to_Rvir hub omega dv z (Vmax_to_Mvir hub omega dv0 0 V).
(** RvirMvir_to_Vvir 971-984: the cgs constant G *)
Definition RvirMvir_to_Vvir (G Rvir Mvir : R) : R := sqrt (G * Mvir / Rvir).
(** create_Mvir 998-1019, create_Rvir 1021-1042, create_Cvir 1044-1065; a new model has rho0 = rc = 1 *)
Definition create_Mvir (hub omega dv z H0 Mvir : R) : halo := setC (Halo 1 1 None) (Mvir_to_Cvir z H0 Mvir) (Some (Mvir_to_Rvir hub omega dv z Mvir)) (Some Mvir) 0 0.
Definition create_Rvir (hub omega dv z H0 Rvir : R) : halo := let Mvir := Rvir_to_Mvir hub omega dv z Rvir in setC (Halo 1 1 None) (Mvir_to_Cvir z H0 Mvir) (Some Rvir) (Some Mvir) 0 0.
Definition create_Cvir (hub omega dv z Cvir : R) : @res halo :=
  match Cvir_to_Mvir Cvir with Ok Mvir => Ok (setC (Halo 1 1 None) Cvir (Some (Mvir_to_Rvir hub omega dv z Mvir)) (Some Mvir) 0 0) | Raise e => Raise e | OutOfFuel => OutOfFuel end.
(** Vvir_to_Tvir 972-995 *)
Definition Vvir_to_Tvir (mp kb mu Vvir : R) : R := mu * mp * Vvir ^ 2 / (2 * kb) * 10 ^ 10.
(** create_VmaxRvmax 1069-1099: rc is fixed; rho0 is whatever the minimiser returns *)
Definition rc_of_rvmax (rvmax : R) : R := rvmax / 2.16.

(** ** NFWProjectedModel 1101-1149, element by element *)
Definition arccosh (y : R) : R := ln (y + sqrt (y ^ 2 - 1)).
Definition nfw_cinv (x : R) : R := if Rle_dec 1 x then acos (/ x) else arccosh (/ x).
Definition nfw_projected (rc sig0 r : R) : R :=
  let x := r / rc in
  let xsqm1 := x * x - 1 in
  let xterm := if Req_EM_T x 1 then / 3 else (1 - / sqrt (Rabs xsqm1) * nfw_cinv x) / xsqm1 in
  sig0 * xterm / (2 * PI * rc ^ 2).
Definition integrateCircular (rc sig0 upper : R) : R :=
  let x := upper / rc in
  sig0 * (if Rlt_dec 1 x then acos (/ x) * / sqrt (Rabs (x * x - 1)) + ln (x / 2) else if Rlt_dec x 1 then arccosh (/ x) * / sqrt (Rabs (x * x - 1)) + ln (x / 2) else 1 - ln 2).

(** ** MoffatModel 1151-1171, King2DrModel 1193-1195, King3DrModel 1215-1220 *)
Definition moffat (A alpha beta r : R) : R := let roa := r / alpha in A * (beta - 1) / (PI * alpha ^ 2) * Rpower (1 + roa * roa) (- beta).
Definition get_fwhm (alpha beta : R) : R := alpha * 2 * sqrt (Rpower 2 (1 / beta) - 1).
Definition set_fwhm (beta val : R) : R := val * / sqrt (4 * (Rpower 2 (1 / beta) - 1)).
Definition king2d (rc rt A r : R) : R := A * rc ^ 2 * (/ sqrt (r * r + rc ^ 2) - / sqrt (rt * rt + rc ^ 2)) ^ 2.
Definition king3d (rc rt A r : R) : R :=
  let z := sqrt (r * r + rc ^ 2) * / sqrt (rt * rt + rc ^ 2) in
  if Rle_dec rt r then 0 else A / z / z / PI / rc * Rpower (1 + rt * rt / rc ^ 2) (- 3 / 2) * (acos z / z - sqrt (1 - z * z)).

(** ** SchechterMagModel 1227-1290, SchechterLumModel 1292-1359; [g]: scipy's gammainc(s,x)*gamma(s), [G]: gamma(s); [None] is numpy.inf; for alpha <= -1 the numerical integral is used *)
Definition schechter_mag (Mstar alpha phistar M : R) : R := let x := Rpower 10 (0.4 * (Mstar - M)) in ln 10 * 0.4 * phistar * Rpower x (1 + alpha) * exp (- x).
Definition schechter_mag_derivative (Mstar alpha phistar M : R) : R := let x := Rpower 10 (0.4 * (Mstar - M)) in - (ln 10 * 0.4) ^ 2 * phistar * exp (- x) * Rpower x alpha * (alpha - x + 1).
Definition schechter_lum (Lstar alpha phistar L : R) : R := let x := L / Lstar in phistar * Rpower x alpha * exp (- x) / Lstar.
Definition schechter_lum_derivative (Lstar alpha phistar L : R) : R := let x := L / Lstar in phistar * / Lstar ^ 2 * (alpha - x) * exp (- x) * Rpower x (alpha - 1).
Section Gamma.
Variable g : R -> R.
Variable G : R.
Definition incomplete (u l : R) (lower : R) (upper : option R) : R :=
  match upper with
  | None => if Rle_dec lower 0 then G else G - g l
  | Some _ => if Req_EM_T lower 0 then g u else g u - g l
  end.
Definition schechter_mag_integral (Mstar alpha phistar lower : R) (upper : option R) : R :=
  if Rle_dec alpha (-1) then RInt (schechter_mag Mstar alpha phistar) lower (match upper with Some x => x | None => 0 end)
  else - phistar * incomplete (match upper with Some x => Rpower 10 (0.4 * (Mstar - x)) | None => 0 end) (Rpower 10 (0.4 * (Mstar - lower))) lower upper.
Definition schechter_lum_integral (Lstar alpha phistar lower : R) (upper : option R) : R :=
  if Rle_dec alpha (-1) then RInt (schechter_lum Lstar alpha phistar) lower (match upper with Some x => x | None => 0 end)
  else phistar * incomplete (match upper with Some x => x / Lstar | None => 0 end) (lower / Lstar) lower upper.
End Gamma.

(** ** SersicModel 1361-1507.  [f] uses getBn of the model's own n *)
Definition sersic (bn Ae re n r : R) : R := Ae * exp (- bn * (pw (r / re) (1 / n) - 1)).
(** f 1384-1387 called on a model whose own index is [own], with the arguments: b_n is that of [own] *)
Definition sersic_f (bnf : R -> R) (own Ae re n r : R) : R := sersic (bnf own) Ae re n r.
(** _getA0 and _setA0 1388-1392: the new Ae *)
Definition get_A0 (bn Ae re n : R) : R := sersic bn Ae re n 0.
Definition set_A0 (bn Ae re n val : R) : R := Ae * (val / sersic bn Ae re n 0).
(** getBn 1396-1414 and exactBn 1416-1430: the cache of the class *)
Section Bn.
Variables exact estimate : R -> R.
Record bncache := Cache { mode : bool; table : list (R * R) }.
Fixpoint find_bn (n : R) (t : list (R * R)) : option R := match t with [] => None | (m, b) :: t => if Req_EM_T m n then Some b else find_bn n t end.
Definition getBn (n : R) (s : bncache) : bncache * R :=
  match find_bn n (table s) with Some b => (s, b) | None => let b := if mode s then exact n else estimate n in (Cache (mode s) ((n, b) :: table s), b) end.
Definition exactBn (v : option bool) (s : bncache) : bncache * bool := match v with None => (s, mode s) | Some b => (Cache b [], b) end.
End Bn.

(** ** ExponentialDiskModel 315-321 and ExponentialSechSqDiskModel 383-393 *)
Definition exp_disk (A l h pa s z : R) : R := let sr := cos pa * s + sin pa * z in let zr := - sin pa * s + cos pa * z in A * exp (- Rabs (sr / l) - Rabs (zr / h)).
Definition sech_disk (A l h pa s z : R) : R :=
  let '(sr, zr) := if Req_EM_T pa 0 then (s, z) else (cos pa * s + sin pa * z, - sin pa * s + cos pa * z) in A * exp (- Rabs (sr / l)) * / cosh (zr / h) ^ 2.
