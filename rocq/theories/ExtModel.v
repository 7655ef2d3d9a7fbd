(** * ExtModel: interstellar extinction (astropysics/obstools.py 1924-2268, 2421-2520; bandwl of phot.py 3673-3680).
    Floats are reals; wavelengths are numbers or lists of numbers.  Left out: a zero wavelength for the classes that
    give an infinity there, A0 infinite (f(V) = 0), arrays as A0, extinction_from_flux_ratio (scipy.optimize.fmin). *)
From Coq Require Import Reals List Bool String Ascii.
From Verif Require Import PyBase SpecModel.
Import ListNotations.
Open Scope R_scope.

Definition log10 (x : R) : R := ln x / ln 10.
Definition pow10 (y : R) : R := Rpower 10 y.
Definition ltb (a b : R) : bool := if Rlt_dec a b then true else false.
Definition leb (a b : R) : bool := if Rle_dec a b then true else false.
(** np.polyval and np.poly1d *)
Definition horner (p : list R) (t : R) : R := fold_left (fun a c => a * t + c) p 0.
(** bandwl: built-in centres, else the centre of the registered band (an argument) *)
Definition builtin_wl (n : string) : option R :=
  (if n =? "U" then Some 3650 else if n =? "B" then Some 4450 else if n =? "V" then Some 5510 else if n =? "R" then Some 6580 else if n =? "I" then Some 8060
   else if n =? "u" then Some 3520 else if n =? "g" then Some 4800 else if n =? "r" then Some 6250 else if n =? "i" then Some 7690 else if n =? "z" then Some 9110 else None)%string.
Inductive band := BName (n : string) | BWl (w : R).
Inductive law := NoLaw | NotCallable | Calzetti | FM (C1 C2 C3 C4 x0 gamma : R) | Cardelli.
Record ext := Ext { lw : law; a0 : R; rv : R }.
(** the polynomials and rational functions of CardelliExtinction.f 2211-2249: the five masked assignments in turn *)
Definition ccm_a (x : R) : R :=
  let a := if leb 0.3 x && leb x 1.1 then 0.574 * Rpower x 1.61 else 0 in
  let a := if leb 1.1 x && leb x 3.3 then horner [0.32999; -0.7753; 0.01979; 0.72085; -0.02427; -0.50447; 0.17699; 1] (x - 1.82) else a in
  let a := if leb 3.3 x && leb x 5.9 then 1.752 - 0.316 * x - 0.104 / ((x - 4.67) ^ 2 + 0.341) else a in
  let y := x - 5.9 in
  let a := if leb 5.9 x && leb x 8 then 1.752 - 0.316 * x - 0.104 / ((x - 4.67) ^ 2 + 0.341) + (-0.04473 * y ^ 2 - 0.009779 * y ^ 3) else a in
  if leb 8 x && leb x 10 then horner [-0.070; 0.137; -0.628; -1.073] (x - 8) else a.
Definition ccm_b (x : R) : R :=
  let b := if leb 0.3 x && leb x 1.1 then -0.527 * Rpower x 1.61 else 0 in
  let b := if leb 1.1 x && leb x 3.3 then horner [-2.09002; 5.3026; -0.62251; -5.38434; 1.07233; 2.28305; 1.41338; 0] (x - 1.82) else b in
  let b := if leb 3.3 x && leb x 5.9 then -3.09 + 1.825 * x + 1.206 / ((x - 4.62) ^ 2 + 0.263) else b in
  let y := x - 5.9 in
  let b := if leb 5.9 x && leb x 8 then -3.09 + 1.825 * x + 1.206 / ((x - 4.62) ^ 2 + 0.263) + (-0.2130 * y ^ 2 - 0.1207 * y ^ 3) else b in
  if leb 8 x && leb x 10 then horner [0.374; -0.42; 4.257; 13.67] (x - 8) else b.
Definition ccm_range (x : R) : bool := negb (ltb x 0.3 || ltb 10 x).
(** the function f of each class: 1946-1947, 2148-2149, 2190-2205, 2211-2254 *)
Definition f (l : law) (rv lam : R) : @res R :=
  match l with
  | NoLaw => Raise NotImplementedError
  | NotCallable => Raise TypeError
  | Calzetti => if Req_EM_T lam 0 then Raise ZeroDivisionError else Ok ((-2.5 / ln 10) * horner [0.011; -0.198; 1.509; -2.156] (10000 / lam))
  | FM C1 C2 C3 C4 x0 g =>
      let x := 10000 / lam in let xsq := x * x in
      let D := xsq * / ((xsq - x0 * x0) ^ 2 + xsq * g * g) in
      let v := C1 + C2 * x + C3 * D in
      let v := if leb 5.9 x then v + C4 * (0.5392 * (x - 5.9) ^ 2 + 0.05644 * (x - 5.9) ^ 3) else v in
      Ok (v + rv)
  | Cardelli => let x := 10000 / lam in if ccm_range x then Ok (ccm_a x + ccm_b x / rv) else Raise ValueError
  end.
(** __init__ 1936-1944: Extinction(f,A0) *)
Inductive farg := FNone | FCallable (g : R -> R) | FOther.
Definition newExtinction (fa : farg) (A0 : R) : @res ext :=
  match fa with FNone => Ok (Ext NoLaw A0 0) | FCallable _ => Raise ValueError | FOther => Ok (Ext NotCallable A0 0) end.
Definition newCalzetti (A0 : R) : ext := Ext Calzetti A0 0.
(** _EBmVExtinction 2156-2170 *)
Definition getEBmV (e : ext) : @res R := match f (lw e) (rv e) 5510 with Ok v => Ok (a0 e * v / rv e) | Raise x => Raise x | OutOfFuel => OutOfFuel end.
Definition setEBmV (e : ext) (val : R) : ext * @res unit :=
  match f (lw e) (rv e) 5510 with Ok v => (Ext (lw e) (rv e * val / v) (rv e), Ok tt) | Raise x => (e, Raise x) | OutOfFuel => (e, OutOfFuel) end.
Definition newEBmV (l : law) (EBmV Rv : R) : @res ext := match setEBmV (Ext l 1 Rv) EBmV with (e, Ok _) => Ok e | (_, Raise x) => Raise x | (_, OutOfFuel) => OutOfFuel end.
(** LMCExtinction, SMCExtinction 2256-2268 *)
Definition lmc : law := FM (-0.890) 0.998 2.719 0.400 4.579 0.934.
Definition smc : law := FM (-4.959) 2.264 0.389 0.461 4.6 1.
(** __call__ 1949-1950 *)
Definition call (e : ext) (lam : R) : @res R := match f (lw e) (rv e) lam with Ok v => Ok (a0 e * v) | Raise x => Raise x | OutOfFuel => OutOfFuel end.
Fixpoint mapr {A B} (g : A -> @res B) (l : list A) : @res (list B) :=
  match l with [] => Ok [] | a :: r => match g a with Ok b => match mapr g r with Ok t => Ok (b :: t) | Raise x => Raise x | OutOfFuel => OutOfFuel end | Raise x => Raise x | OutOfFuel => OutOfFuel end end.
Section Bands.
(** bands[name].cen of the other bands; an unknown name raises KeyError *)
Variable cen : string -> @res R.
Definition bandwl (n : string) : @res R := match builtin_wl n with Some w => Ok w | None => cen n end.
Definition wl_of (b : band) : @res R := match b with BName n => bandwl n | BWl w => Ok w end.
(** correctPhotometry 1952-1966, Alambda 1968-1978 *)
Definition correctPhotometry (e : ext) (mag : R) (b : band) : @res R :=
  match wl_of b with Ok w => match call e w with Ok a => Ok (mag - a) | Raise x => Raise x | OutOfFuel => OutOfFuel end | Raise x => Raise x | OutOfFuel => OutOfFuel end.
Definition neg_res (r : @res R) : @res R := match r with Ok v => Ok (-1 * v) | x => x end.
Definition Alambda (e : ext) (b : band) : @res R := neg_res (correctPhotometry e 0 b).
Definition Alambdas (e : ext) (l : list band) : @res (list R) := match mapr (correctPhotometry e 0) l with Ok v => Ok (map (Rmult (-1)) v) | Raise x => Raise x | OutOfFuel => OutOfFuel end.
(** str.replace('E(',''), str.replace(')',''), str.split(',') *)
Fixpoint dropE (s : string) : string :=
  match s with
  | String "E"%char (String "("%char r) => dropE r
  | String a r => String a (dropE r)
  | EmptyString => EmptyString
  end.
Fixpoint dropClose (s : string) : string := match s with String a r => if (a =? ")")%char then dropClose r else String a (dropClose r) | EmptyString => EmptyString end.
Fixpoint splitComma (cur s : string) : list string :=
  match s with EmptyString => [cur] | String a r => if (a =? ",")%char then cur :: splitComma EmptyString r else splitComma (cur ++ String a EmptyString)%string r end.
(** correctColor 1980-1998: both wavelengths are looked up if the first is a name *)
Inductive colorarg := CText (s : string) | CPair (b1 b2 : band).
Definition correctColor (e : ext) (color : R) (c : colorarg) : @res R :=
  let go w1 w2 := match call e w1 with Ok a1 => match call e w2 with Ok a2 => Ok (color - a1 + a2) | Raise x => Raise x | OutOfFuel => OutOfFuel end | Raise x => Raise x | OutOfFuel => OutOfFuel end in
  let names n1 n2 := match bandwl n1 with Ok w1 => match bandwl n2 with Ok w2 => go w1 w2 | Raise x => Raise x | OutOfFuel => OutOfFuel end | Raise x => Raise x | OutOfFuel => OutOfFuel end in
  match c with
  | CText s => match splitComma EmptyString (dropClose (dropE s)) with [n1; n2] => names n1 n2 | _ => Raise ValueError end
  | CPair (BName n1) (BName n2) => names n1 n2
  | CPair (BName n1) (BWl _) => match bandwl n1 with Ok _ => Raise KeyError | Raise x => Raise x | OutOfFuel => OutOfFuel end
  | CPair (BWl w1) (BWl w2) => go w1 w2
  | CPair (BWl w1) (BName _) => match call e w1 with Ok _ => Raise TypeError | Raise x => Raise x | OutOfFuel => OutOfFuel end
  end.
End Bands.
(** correctFlux 2022-2032 *)
Definition line_wl (n : string) : option R := (if n =? "Ha" then Some 6562.82 else if n =? "Hb" then Some 4861.33 else if n =? "Hg" then Some 4340.46 else if n =? "Hd" then Some 4101.74 else if n =? "He" then Some 3970.07 else None)%string.
Definition correctFlux (e : ext) (flux : R) (lam : band) : @res R :=
  match (match lam with BName n => line_wl n | BWl w => Some w end) with
  | None => match lw e with NoLaw => Raise NotImplementedError | _ => Raise TypeError end
  | Some w => match call e w with Ok a => Ok (flux * pow10 (a / 2.5)) | Raise x => Raise x | OutOfFuel => OutOfFuel end
  end.
(** computeA0FromFluxRatio 2047-2108 *)
Definition balmer (n : string) : option (R * R * R) :=
  (if n =? "Hab" then Some (2.86, 6562.82, 4861.33) else if n =? "Hag" then Some (6.16, 6562.82, 4340.46) else if n =? "Had" then Some (11.21, 6562.82, 4101.74) else if n =? "Hae" then Some (18.16, 6562.82, 3970.07)
   else if n =? "Hbg" then Some (2.15, 4861.33, 4340.46) else if n =? "Hbd" then Some (3.91, 4861.33, 4101.74) else if n =? "Hbe" then Some (6.33, 4861.33, 3970.07)
   else if n =? "Hgd" then Some (1.82, 4340.46, 4101.74) else if n =? "Hge" then Some (2.95, 4340.46, 3970.07) else if n =? "Hde" then Some (1.62, 4101.74, 3970.07) else None)%string.
(** one ratio: -2.5*log10(R/R0)/(f(l1)-f(l2)) *)
Definition one_A0 (e : ext) (r r0 l1 l2 : R) : @res R :=
  match f (lw e) (rv e) l1 with
  | Ok v1 => match f (lw e) (rv e) l2 with Ok v2 => Ok (-2.5 * log10 (r / r0) / (v1 - v2)) | Raise x => Raise x | OutOfFuel => OutOfFuel end
  | Raise x => Raise x | OutOfFuel => OutOfFuel end.
(** expected: the name of a transition, a list of names (the variable R is then never bound: NameError), a number
    (subscripted: TypeError), a list of numbers with lists of wavelengths, given or not *)
Inductive expect := EName (n : string) | ENames (l : list string) | ENum (r : R) | ENums (l : list R) (wls : option (list (R * R))).
Definition set_A0 (e : ext) (a : R) : ext := Ext (lw e) a (rv e).
Definition computeA0 (e : ext) (measured : list R) (ex : expect) (filt : list R -> R) : ext * @res R :=
  let done r := match r with Ok l => (set_A0 e (filt l), Ok (filt l)) | Raise x => (e, Raise x) | OutOfFuel => (e, OutOfFuel) end in
  match ex with
  | EName n => match balmer n with None => (e, Raise KeyError) | Some (r0, l1, l2) => done (mapr (fun r => one_A0 e r r0 l1 l2) measured) end
  | ENames [] => (e, Raise IndexError)
  | ENames l => (e, Raise (if forallb (fun n => match balmer n with Some _ => true | None => false end) l then NameError else KeyError))
  | ENum _ => (e, Raise TypeError)
  | ENums [] _ => (e, Raise IndexError)
  | ENums l None => (e, Raise ValueError)
  | ENums l (Some w) => if (List.length w =? 0)%nat then (e, Raise ValueError) else done (mapr (fun p => match p with (r, (r0, (l1, l2))) => one_A0 e r r0 l1 l2 end) (combine measured (combine l w)))
  end.
(** correctSpectrum 2000-2020 *)
Section Spectra.
Variables c h ergperev : R.
Definition correctSpectrum (e : ext) (s : spectrum) : spectrum * @res unit :=
  let old := unit_name (sunit s) in
  match setUnit c h ergperev s "wavelength-angstrom" with
  | (s1, Ok _) =>
      match mapr (call e) (sx s1) with
      | Ok a =>
          let corr := map (fun v => pow10 (v / 2.5)) a in
          let s2 := Spec (sx s1) (map (fun p => fst p * snd p) (combine (sflux s1) corr)) (map (fun p => fst p * snd p) (combine (serr s1) corr)) (sunit s1) (scont s1) (scontop s1) (sz s1) in
          setUnit c h ergperev s2 old
      | Raise x => (s1, Raise x) | OutOfFuel => (s1, OutOfFuel)
      end
  | (s1, Raise x) => (s1, Raise x) | (s1, OutOfFuel) => (s1, OutOfFuel)
  end.
End Spectra.
(** extinction_correction 2421-2520, number arguments: the flux or None, Milky Way, LMC or SMC *)
Inductive exttype := MW | LMCt | SMCt.
Definition extinction_correction (cen : string -> @res R) (flux : option R) (b : band) (EBmV Rv : R) (t : exttype) : @res R :=
  let cls l := match newEBmV l EBmV Rv with Ok e => match flux with Some v => correctFlux e v b | None => match correctFlux e 1 b with Ok _ => Raise TypeError | x => x end end | Raise x => Raise x | OutOfFuel => OutOfFuel end in
  match t with
  | LMCt => cls lmc
  | SMCt => cls smc
  | MW => match wl_of cen b with
          | Ok w => match f Cardelli Rv w with
                    | Ok v => let al := v * Rv * EBmV in Ok (match flux with None => al | Some fl => pow10 ((-2.5 * log10 fl - al) / -2.5) end)
                    | Raise x => Raise x | OutOfFuel => OutOfFuel end
          | Raise x => Raise x | OutOfFuel => OutOfFuel end
  end.
