(** * SpecModel: spectral units and Spectrum objects (astropysics/spec.py 74-296, 298-498, 527-567, 913-995, 1306-1369)

    Over the reals: x, flux and err are float arrays (arrays of integers would be truncated by the in-place conversion).  Spectra are one-dimensional; the three arrays have the same length.  A continuum model (a callable) is a function of the
    x array.  Not modelled: names, redshift quality, pickling, plotting, features (SpecFeatures). *)
From Coq Require Import List Bool Reals Lra String Ascii.
From Verif Require Import PyBase.
Import ListNotations.
Open Scope R_scope.

Inductive phys := Wav | Freq | En.
Inductive unit_ := UAng | UNm | UMicron | UM | UCm | UHz | UTHz | UeV | UErg.
Definition unit_eqb (a b : unit_) : bool := match a, b with UAng, UAng | UNm, UNm | UMicron, UMicron | UM, UM | UCm, UCm | UHz, UHz | UTHz, UTHz | UeV, UeV | UErg, UErg => true | _, _ => false end.
Definition ptype (u : unit_) : phys := match u with UAng | UNm | UMicron | UM | UCm => Wav | UHz | UTHz => Freq | UeV | UErg => En end.
(** the property unit: _getUnit 274-275 *)
Definition unit_name (u : unit_) : string :=
  match u with
  | UAng => "wavelength-angstrom" | UNm => "wavelength-nm" | UMicron => "wavelength-micron" | UM => "wavelength-m" | UCm => "wavelength-cm"
  | UHz => "frequency-Hz" | UTHz => "frequency-THz" | UeV => "energy-eV" | UErg => "energy-erg"
  end%string.
(** str.lower *)
Definition lower_char (a : ascii) : ascii := let n := nat_of_ascii a in if andb (Nat.leb 65 n) (Nat.leb n 90) then ascii_of_nat (n + 32) else a.
Fixpoint lower (s : string) : string := match s with EmptyString => EmptyString | String a r => String (lower_char a) (lower r) end.
(** strToUnit 113-158.  'J' and 'energy-J' are compared with a lower-case string and never match, so joules are not a unit *)
Definition one_of (u : string) (l : list string) : bool := existsb (String.eqb u) l.
Definition strToUnit (s : string) : @res unit_ :=
  let u := lower s in
  if one_of u ["wl"; "lambda"; "ang"; "angstroms"; "wavelength"; "wavelength-angstrom"]%string then Ok UAng
  else if one_of u ["nm"; "wavelength-nm"]%string then Ok UNm
  else if one_of u ["microns"; "um"; "wavelength-micron"]%string then Ok UMicron
  else if one_of u ["m"; "wavelength-m"]%string then Ok UM
  else if one_of u ["cm"; "wavelength-cm"]%string then Ok UCm
  else if one_of u ["f"; "nu"; "hz"; "frequency"; "frequency-hz"]%string then Ok UHz
  else if one_of u ["thz"; "frequency-THz"]%string then Ok UTHz
  else if one_of u ["e"; "en"; "energy"; "energy-eV"]%string then Ok UeV
  else if one_of u ["erg"; "energy-erg"]%string then Ok UErg
  else Raise ValueError.

Section Spec.
(** constants.c, constants.h and constants.ergperev (cgs) *)
Variables c h ergperev : R.
Definition scale (u : unit_) : R := match u with UAng => / 10 ^ 8 | UNm => / 10 ^ 7 | UMicron => / 10 ^ 4 | UM => 10 ^ 2 | UCm => 1 | UHz => 1 | UTHz => 10 ^ 12 | UeV => ergperev | UErg => 1 end.
(** __convertUnitType 205-250 *)
Definition conv (old new : phys) (x f : R) : R * R :=
  match new, old with
  | Wav, Wav | Freq, Freq | En, En => (x, f)
  | Wav, Freq => (c / x, x * x * f / c)
  | Wav, En => (h * c / x, x * x * f / h / c)
  | Freq, Wav => (c / x, x * x * f / c)
  | Freq, En => (x / h, h * f)
  | En, Wav => (h * c / x, x * x * f / h / c)
  | En, Freq => (h * x, f / h)
  end.
(** __xtrans 252-254, __xitrans 256-258, __xftrans 260-265 (and __xfinplace 267-272), for a change from [u] to [v] *)
Definition xtrans (u v : unit_) (x : R) : R := fst (conv (ptype u) (ptype v) (x * scale u) 0) / scale v.
Definition xitrans (u v : unit_) (x : R) : R := fst (conv (ptype v) (ptype u) (x * scale v) 0) / scale u.
Definition xftrans (u v : unit_) (p : R * R) : R * R := let q := conv (ptype u) (ptype v) (fst p * scale u) (snd p / scale u) in (fst q / scale v, snd q * scale v).

(** ** Spectrum *)
Inductive cont := CArr (l : list R) | CFun (m : list R -> list R).
Inductive contop := Subtraction | Normalize.
Record spectrum := Spec { sx : list R; sflux : list R; serr : list R; sunit : unit_; scont : option cont; scontop : option contop; sz : R }.
Definition fluxes (u v : unit_) (x f : list R) : list R := map (fun p => snd (xftrans u v p)) (combine x f).
(** _applyUnits 416-431 inside _setUnit 276-296 *)
Definition applyUnits (s : spectrum) (v : unit_) : spectrum * @res unit :=
  match scontop s with
  | Some _ => (s, Raise ValueError)
  | None => let u := sunit s in
            (Spec (map (fun p => fst (xftrans u v p)) (combine (sx s) (sflux s))) (fluxes u v (sx s) (sflux s)) (fluxes u v (sx s) (serr s)) v
               (match scont s with Some (CArr l) => Some (CArr (fluxes u v (sx s) l)) | _ => None end) None (sz s), Ok tt)
  end.
Definition setUnit (s : spectrum) (name : string) : spectrum * @res unit :=
  match strToUnit name with
  | Ok v => if unit_eqb v (sunit s) then (s, Ok tt) else applyUnits s v
  | Raise e => (s, Raise e)
  | OutOfFuel => (s, OutOfFuel)
  end.
(** ivar 477-478 *)
Definition ivar (s : spectrum) : list R := map (fun e => 1 / e / e) (serr s).
(** getUnitFlux 527-550: the unit is restored by name in a finally clause *)
Inductive errarg := ENo | EErr | EIvar.
Definition getUnitFlux (s : spectrum) (units : string) (e : errarg) : spectrum * @res (list R * list R * list R) :=
  match setUnit s units with
  | (s1, Ok _) => match setUnit s1 (unit_name (sunit s)) with
                  | (s2, Ok _) => (s2, Ok (sx s1, sflux s1, match e with ENo => [] | EErr => serr s1 | EIvar => ivar s1 end))
                  | (s2, Raise x) => (s2, Raise x)
                  | (s2, OutOfFuel) => (s2, OutOfFuel)
                  end
  | (s1, Raise x) => match setUnit s1 (unit_name (sunit s)) with (s2, Raise y) => (s2, Raise y) | (s2, _) => (s2, Raise x) end
  | (s1, OutOfFuel) => (s1, OutOfFuel)
  end.
(** nflux 452-460: the finally clause assigns to another attribute, so the unit stays in Hz *)
Definition nflux (s : spectrum) : spectrum * @res (list R) :=
  match setUnit s "hz" with
  | (s1, Ok _) => (s1, Ok (map (fun p => snd p / h / fst p) (combine (sx s1) (sflux s1))))
  | (s1, Raise x) => (s1, Raise x)
  | (s1, OutOfFuel) => (s1, OutOfFuel)
  end.
(** getPhotonFlux 552-567 *)
Definition photon_factor (u : unit_) (x : R) : R := let y := x * scale u in match ptype u with Wav => y / h / c | Freq => 1 / h / y | En => 1 / y end.
Definition getPhotonFlux (s : spectrum) : list R := map (fun p => photon_factor (sunit s) (fst p) * snd p) (combine (sx s) (sflux s)).
(** x0 494-499 *)
Definition getX0 (s : spectrum) : list R := map (fun x => x / (sz s + 1)) (sx s).
Definition setX0 (s : spectrum) (l : list R) : spectrum * @res unit :=
  if Nat.eqb (List.length l) (List.length (sflux s)) then (Spec (map (fun x => x * (sz s + 1)) l) (sflux s) (serr s) (sunit s) (scont s) (scontop s) (sz s), Ok tt) else (s, Raise ValueError).
(** the continuum: subtractContinuum 913-928, normalizeByContinuum 930-945, revertContinuum 974-994 *)
Definition map2 (f : R -> R -> R) (a b : list R) : list R := map (fun p => f (fst p) (snd p)) (combine a b).
Definition cont_values (s : spectrum) : @res (list R) := match scont s with None => Raise ValueError | Some (CArr l) => Ok l | Some (CFun m) => Ok (m (sx s)) end.
Definition with_flux (s : spectrum) (f : list R) (o : option contop) : spectrum := Spec (sx s) f (serr s) (sunit s) (scont s) o (sz s).
Definition doContinuum (op : contop) (s : spectrum) : spectrum * @res unit :=
  match scontop s with
  | Some _ => (s, Raise ValueError)
  | None => match cont_values s with
            | Ok l => (with_flux s (map2 (match op with Subtraction => Rminus | Normalize => Rdiv end) (sflux s) l) (Some op), Ok tt)
            | Raise e => (s, Raise e)
            | OutOfFuel => (s, OutOfFuel)
            end
  end.
Definition subtractContinuum := doContinuum Subtraction.
Definition normalizeByContinuum := doContinuum Normalize.
Definition revertContinuum (s : spectrum) : spectrum * @res unit :=
  match cont_values s with
  | Ok l => match scontop s with
            | None => (s, Raise ValueError)
            | Some op => (with_flux s (map2 (match op with Subtraction => Rplus | Normalize => Rmult end) (sflux s) l) None, Ok tt)
            end
  | Raise e => (s, Raise e)
  | OutOfFuel => (s, OutOfFuel)
  end.
(** the constructor 305-360 with sort=True (argsort of x; insertion sort, which is stable, stands for it) and err given: negative errors change sign *)
Fixpoint ins (p : R * (R * R)) (l : list (R * (R * R))) : list (R * (R * R)) := match l with [] => [p] | q :: r => if Rle_dec (fst p) (fst q) then p :: l else q :: ins p r end.
Definition sort_x (l : list (R * (R * R))) : list (R * (R * R)) := fold_right ins [] l.
Definition newSpectrum (x f e : list R) (name : string) : @res spectrum :=
  if negb (Nat.eqb (List.length x) (List.length f)) then Raise ValueError else if negb (Nat.eqb (List.length e) (List.length f)) then Raise ValueError else
  match strToUnit name with
  | Ok u => let l := sort_x (combine x (combine f (map Rabs e))) in Ok (Spec (map fst l) (map (fun p => fst (snd p)) l) (map (fun p => snd (snd p)) l) u None None 0)
  | Raise y => Raise y
  | OutOfFuel => OutOfFuel
  end.

(** ** FunctionSpectrum 1306-1369.  The stored transformations are bound methods: they use the units of the latest change ([flast]), whenever they were stored.
    [fhist] is _unithist; _xitranses and _xftranses always have the same length. *)
Record fspec := FSpec { fbase : spectrum; ff : R -> R; fe : R -> R; flast : unit_ * unit_; fhist : list unit_ }.
Definition newF (xs : list R) (f e : R -> R) (u : unit_) : fspec := FSpec (Spec xs (map f xs) (map e xs) u None None 0) f e (u, u) [].
Fixpoint upto (v : unit_) (l : list unit_) : option (list unit_) :=
  match l with [] => None | w :: r => if unit_eqb w v then Some [w] else match upto v r with Some q => Some (w :: q) | None => None end end.
Definition fsetUnit (s : fspec) (name : string) : fspec * @res unit :=
  match strToUnit name with
  | Ok v => if unit_eqb v (sunit (fbase s)) then (s, Ok tt)
            else match applyUnits (fbase s) v with
                 | (b, Ok _) => (FSpec b (ff s) (fe s) (sunit (fbase s), v) (match upto v (fhist s) with Some q => q | None => fhist s ++ [v] end), Ok tt)
                 | (b, Raise e) => (FSpec b (ff s) (fe s) (sunit (fbase s), v) (fhist s), Raise e)
                 | (b, OutOfFuel) => (s, OutOfFuel)
                 end
  | Raise e => (s, Raise e)
  | OutOfFuel => (s, OutOfFuel)
  end.
Fixpoint iter {B} (n : nat) (g : B -> B) (b : B) : B := match n with O => b | S n => iter n g (g b) end.
(** _setX 1328-1343 *)
Definition fsetX (s : fspec) (xs : list R) : fspec :=
  let n := List.length (fhist s) in
  let back := iter n (xitrans (fst (flast s)) (snd (flast s))) in
  let forth := iter n (xftrans (fst (flast s)) (snd (flast s))) in
  let b := fbase s in
  FSpec (Spec xs (map (fun x => let x0 := back x in snd (forth (x0, ff s x0))) xs) (map (fun x => let x0 := back x in snd (forth (x0, fe s x0))) xs) (sunit b) (scont b) (scontop b) (sz b)) (ff s) (fe s) (flast s) (fhist s).
End Spec.
