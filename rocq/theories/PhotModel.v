(** * PhotModel: magnitudes, luminosities, distance moduli, colours (astropysics/phot.py) over the reals *)
From Coq Require Import List Bool Reals Lra String.
From Verif Require Import PyBase CosmoDistModel.
Import ListNotations.
Open Scope R_scope.

(** ** magnitude systems, phot.py 60-141 *)
(** PogsonMagnitude 78-88; [ln] of a number that is not positive is outside the model *)
Definition pa : R := - (5 / 2) / ln 10.
Definition magToFlux (m : R) : R := exp (m / pa).
Definition magerrToFluxerr (err mag : R) : R := - err * magToFlux mag / pa.
Definition fluxToMag (f : R) : R := pa * ln f.
Definition fluxerrToMagerr (err flux : R) : R := - pa * err / flux.
(** AsinhMagnitude.__init__ 93-101: the b setter reads a global b that does not exist; choose_magnitude_system 117-141 *)
Inductive magsys := Pogson | UserSys (n : nat).
Inductive sysarg := SysName (s : string) | SysObj (n : nat).
Definition choose_magnitude_system (cur : magsys) (a : sysarg) : magsys * @res unit :=
  match a with
  | SysObj n => (UserSys n, Ok tt)
  | SysName s => if String.eqb s "pogson" then (Pogson, Ok tt) else if String.eqb s "asinh" then (cur, Raise NameError) else (cur, Raise ValueError)
  end.

(** ** Band.computeMag, computeZptFromSpectrum, compute_band_zpts 394-401, 459-470, 816-830: [f] is what computeFlux returns for the spectrum *)
Definition computeMag (zptflux f : R) : R := fluxToMag (f / zptflux).
Definition computeZpt (f : R) : R := f.
Definition scaleZpt (zptflux s : R) : R := zptflux * s.

(** ** luminosities, phot.py 3241-3380 *)
Definition band_to_msun (b : string) : option R :=
  let l := [("U", 561 / 100); ("B", 548 / 100); ("V", 483 / 100); ("R", 442 / 100); ("I", 408 / 100); ("J", 364 / 100); ("H", 332 / 100); ("K", 328 / 100);
            ("u", 675 / 100); ("g", 533 / 100); ("r", 467 / 100); ("i", 448 / 100); ("z", 442 / 100)]%string in
  match find (fun p => String.eqb (fst p) b) l with Some p => Some (snd p) | None => None end.
Inductive zpt := ZNum (r : R) | ZBand (b : string).
Definition zval (z : zpt) : @res R := match z with ZNum r => Ok r | ZBand b => match band_to_msun b with Some r => Ok r | None => Raise KeyError end end.
(** np.any(err) for an optional scalar *)
Definition any_err (e : option R) : option R := match e with Some x => if Req_EM_T x 0 then None else Some x | None => None end.
Definition mag_to_lum (M : R) (Mz : zpt) (Lz : R) (Merr : option R) : @res (R * option R) :=
  bindr (zval Mz) (fun z => let L := magToFlux (M - z) * Lz in
    match any_err Merr with Some e => Ok (L, Some (magerrToFluxerr e (M - z) * Lz)) | None => Ok (L, None) end).
Definition lum_to_mag (L : R) (Mz : zpt) (Lz : R) (Lerr : option R) : @res (R * option R) :=
  bindr (zval Mz) (fun z => let M := z + fluxToMag (L / Lz) in
    match any_err Lerr with Some e => Ok (M, Some (fluxerrToMagerr (e / Lz) (L / Lz))) | None => Ok (M, None) end).
(** dictionaries: a band without zero point leaves a string in the array, and the subtraction fails *)
Fixpoint dict_map (f : R -> R -> R) (d : list (string * R)) : @res (list (string * R)) :=
  match d with
  | [] => Ok []
  | (b, x) :: r => match band_to_msun b with None => Raise TypeError | Some z => bindr (dict_map f r) (fun l => Ok ((b, f z x) :: l)) end
  end.
Definition mag_to_lum_dict (d : list (string * R)) (Lz : R) := dict_map (fun z M => magToFlux (M - z) * Lz) d.
Definition lum_to_mag_dict (d : list (string * R)) (Lz : R) := dict_map (fun z L => z + fluxToMag (L / Lz)) d.
Definition color_to_flux_ratio (color : R) (b1 b2 : string) : @res R :=
  bindr (mag_to_lum color (ZBand b1) 1 None) (fun x => bindr (mag_to_lum 0 (ZBand b2) 1 None) (fun y => Ok (fst x / fst y))).
Definition flux_ratio_to_color (ratio : R) (b1 b2 : string) : @res R :=
  bindr (lum_to_mag ratio (ZBand b1) 1 None) (fun x => bindr (lum_to_mag 1 (ZBand b2) 1 None) (fun y => Ok (fst x - fst y))).

(** ** PhotObservation 871-993 for 1-d values: [zpts] are the bands' zptflux at the time of the call *)
Record pobs := PObs { nb : nat; ismags : bool; vals : list R; errs : list R }.
Definition setmag (o : pobs) (v : list R) : pobs * @res unit := if Nat.eqb (List.length v) (nb o) then (PObs (nb o) true v (errs o), Ok tt) else (o, Raise ValueError).
Definition setflux (o : pobs) (v : list R) : pobs * @res unit := if Nat.eqb (List.length v) (nb o) then (PObs (nb o) false v (errs o), Ok tt) else (o, Raise ValueError).
(** 926: _flux_to_mags is not defined anywhere *)
Definition getmag (o : pobs) : @res (list R) := if ismags o then Ok (vals o) else Raise NameError.
Definition map2 {A B C} (f : A -> B -> C) (a : list A) (b : list B) : list C := map (fun p => f (fst p) (snd p)) (combine a b).
Definition getflux (zpts : list R) (o : pobs) : list R := if ismags o then map2 (fun z m => z * magToFlux m) zpts (vals o) else vals o.
Definition getmagerr (o : pobs) : list R := if ismags o then errs o else map2 fluxerrToMagerr (errs o) (vals o).
Definition setmagerr (o : pobs) (e : list R) : pobs * @res unit :=
  if negb (Nat.eqb (List.length e) (List.length (vals o))) then (o, Raise ValueError)
  else if ismags o then (PObs (nb o) true (vals o) e, Ok tt)
  else match getmag o with Ok m => (PObs (nb o) false (vals o) (map2 magerrToFluxerr e m), Ok tt) | Raise x => (o, Raise x) | OutOfFuel => (o, OutOfFuel) end.
Definition getfluxerr (zpts : list R) (o : pobs) : list R := if ismags o then map2 (fun z p => z * magerrToFluxerr (fst p) (snd p)) zpts (combine (errs o) (vals o)) else errs o.
(** 989: the magnitudes are passed where fluxes are expected *)
Definition setfluxerr (o : pobs) (e : list R) : pobs * @res unit :=
  if negb (Nat.eqb (List.length e) (List.length (vals o))) then (o, Raise ValueError)
  else if ismags o then (PObs (nb o) true (vals o) (map2 fluxerrToMagerr e (vals o)), Ok tt) else (PObs (nb o) false (vals o) e, Ok tt).

(** ** distances, phot.py 3080-3196 *)
Inductive intype := IDistance | IRedshift | IOther.
(** autocosmo: True, False, 'warn'.  np.any(z) > 0.1 is True for every z that is not 0. *)
Inductive autoc := ATrue | AFalse | AWarn.
Definition distance_modulus (w : frw) (x : R) (t : intype) (dx : option R) (a : autoc) : @res (R * option (R * R)) :=
  let c := ckm in
  bindr (match t with
         | IDistance => Ok (x / 10 ^ 6 * Hub w / c, x, match dx with Some d => Some (d / 10 ^ 6 * Hub w / c) | None => None end, dx)
         | IRedshift => Ok (x, x * c / Hub w, dx, match dx with Some d => Some (d * c / Hub w) | None => None end)
         | IOther => Raise ValueError
         end) (fun '(z, x, dz, dx) =>
  let cosmo := match a with ATrue => if Req_EM_T z 0 then false else true | _ => false end in
  if cosmo then zdist_full w false 4 None false dz z
  else match dx with None => Ok (5 * log10 x - 5, None) | Some _ => Raise NameError (* ddm is read before it is assigned *) end).
Definition distance_from_modulus (dm : R) (ddm : option R) : R * option (R * R) :=
  match ddm with
  | None => (Rpower 10 (1 + dm / 5), None)
  | Some e => (dm, Some (Rpower 10 (1 + (dm + e) / 5) - dm, dm - Rpower 10 (1 + (dm - e) / 5)))
  end.
Definition abs_mag (w : frw) (appmag x : R) (t : intype) (a : autoc) : @res R := bindr (distance_modulus w x t None a) (fun d => Ok (appmag - fst d)).
Definition app_mag (w : frw) (absmag x : R) (t : intype) (a : autoc) : @res R := bindr (distance_modulus w x t None a) (fun d => Ok (absmag + fst d)).
(** 3198-3231, 3381-3400 *)
Definition area_to_sb (m area : R) : R := m + 5 / 2 * log10 area.
Definition rh_to_sb (totalm rh : R) : R := area_to_sb (totalm + 5 / 2 * log10 2) (PI * rh * rh).
Definition intensity_to_flux (radius distance : R) : R := let ratio := radius / distance in PI * ratio * ratio.
Definition flux_to_intensity (radius distance : R) : R := let ratio := radius / distance in 1 / (PI * ratio * ratio).
Definition cosmo_sb (S z : R) (mag : bool) : R := if mag then S - 10 * log10 (1 + z) else S * (1 + z) ^ 4.
Definition intensities_to_sig (Is In exposure area : R) : R := exposure * area * Is * / sqrt (exposure * area * (Is + In)).

(** ** photometric transformations, phot.py 2764-2909 *)
Definition UBVRI_to_ugriz (U B V Rc I : R) : R * R * R * R * R :=
  let umg := 128/100 * (U - B) + 113/100 in let rmi := 91/100 * (Rc - I) - 20/100 in let rmz := 172/100 * (Rc - I) - 41/100 in
  let g := V + 60/100 * (B - V) - 12/100 in let r := V - 42/100 * (B - V) + 11/100 in (umg + g, g, r, r - rmi, r - rmz).
Definition ugriz_to_UBVRI (u g r i z : R) : R * R * R * R * R :=
  let UmB := 78/100 * (u - g) - 88/100 in let VmR := 109/100 * (r - i) + 22/100 in let RmI := 1 * (r - i) + 21/100 in
  let B := g + 39/100 * (g - r) + 21/100 in let V := g - 59/100 * (g - r) - 1/100 in (UmB + B, B, V, V - VmR, V - VmR - RmI).
(** transform_dict_ugriz_UBVRI (ugrizprimed=False): dictionary as a partial map; a present key always has a value *)
Definition dict := string -> option R.
Definition has (d : dict) (k : string) : bool := match d k with Some _ => true | None => false end.
Definition dget (d : dict) (k : string) : R := match d k with Some x => x | None => 9999 end.
Definition dset (d : dict) (k : string) (x : R) : dict := fun n => if String.eqb n k then Some x else d n.
Open Scope string_scope.
Definition transform_dict (d : dict) : dict * @res unit :=
  let ugriz := has d "u" || has d "g" || has d "r" || has d "i" || has d "z" in
  let UBVRI := has d "U" || has d "B" || has d "V" || has d "R" || has d "I" in
  if ugriz && UBVRI then (d, Raise ValueError)
  else if ugriz then
    let '(U, B, V, Rc, Ic) := ugriz_to_UBVRI (dget d "u") (dget d "g") (dget d "r") (dget d "i") (dget d "z") in
    if has d "g" && has d "r" then
      let d' := dset (dset d "B" B) "V" V in
      let d' := if has d "u" then dset d' "U" U else d' in
      let d' := if has d "i" && has d "z" then dset (dset d' "I" Ic) "R" Rc else d' in (d', Ok tt)
    else (d, Raise ValueError)
  else if UBVRI then
    let '(u, g, r, i, z) := UBVRI_to_ugriz (dget d "U") (dget d "B") (dget d "V") (dget d "R") (dget d "I") in
    if has d "B" && has d "V" then
      let d' := dset (dset d "g" g) "r" r in
      let d' := if has d "U" then dset d' "u" u else d' in
      let d' := if has d "R" && has d "I" then dset (dset d' "i" i) "z" z else d' in (d', Ok tt)
    else (d, Raise ValueError)
  else (d, Raise TypeError).
Close Scope string_scope.

(** ** colour and effective temperature, phot.py 3463-3504 *)
Definition gr_poly (c : R) : R := 283/10000 * c ^ 3 + 488/10000 * c ^ 2 - 316/1000 * c + 3882/1000.
Definition gr_to_teff (c : R) : @res R := if Rle_dec (-2/10) c then if Rle_dec c (9/10) then Ok (Rpower 10 (gr_poly c)) else Raise ValueError else Raise ValueError.
(** poly1d(...).r is the list of complex roots (re, im) *)
Fixpoint good_root (l : list (R * R)) (acc : option R) : @res (option R) :=
  match l with
  | [] => Ok acc
  | (x, y) :: r =>
    if Req_EM_T y 0 then if Rle_dec (-2/10) x then if Rle_dec x (9/10) then match acc with Some _ => Raise ValueError | None => good_root r (Some x) end else good_root r acc else good_root r acc else good_root r acc
  end.
Definition teff_to_gr (roots : R -> list (R * R)) (teff : R) : @res (option R) := good_root (roots (3882/1000 - log10 teff)) None.
(** np.interp for increasing xp: constant outside *)
Fixpoint interp_from (x0 y0 x : R) (l : list (R * R)) : R :=
  match l with
  | [] => y0
  | (x1, y1) :: r => if Rle_dec x x1 then y0 + (y1 - y0) / (x1 - x0) * (x - x0) else interp_from x1 y1 x r
  end.
Definition interp (x : R) (l : list (R * R)) : R := match l with [] => 0 | (x0, y0) :: r => if Rle_dec x x0 then y0 else interp_from x0 y0 x r end.
Definition sf_table : list (R * R) := [(3/10, 7078); (4/10, 6621); (5/10, 6214); (6/10, 5852); (7/10, 5532); (8/10, 5248); (9/10, 4996); (1, 4770); (11/10, 4567); (12/10, 4382); (13/10, 4209); (14/10, 4044); (15/10, 3882)].
Definition bv_to_teff (c : R) : R := interp c sf_table.
Definition teff_to_bv (t : R) : R := interp t (rev (map (fun p => (snd p, fst p)) sf_table)).
(** the dispatch on colorbands *)
Definition color_to_teff (bands : string) (c : R) : @res R := if String.eqb bands "g-r" then gr_to_teff c else if String.eqb bands "B-V" then Ok (bv_to_teff c) else Raise ValueError.
Definition teff_to_color (roots : R -> list (R * R)) (bands : string) (t : R) : @res (option R) :=
  if String.eqb bands "g-r" then teff_to_gr roots t else if String.eqb bands "B-V" then Ok (Some (teff_to_bv t)) else Raise ValueError.
