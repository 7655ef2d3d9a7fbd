(** * SmModel: smoothing of spectra, astropysics/spec.py 627-670

    Over the reals.  scipy.ndimage's filters are represented by what they are documented to compute: correlation with weights, the array continued by reflection (d c b a | a b c d | d c b a). *)
From Coq Require Import List Bool Reals ZArith String.
From Verif Require Import PyBase SpecModel RealTrig.
Import ListNotations.
Open Scope R_scope.

(** the pixel that position [j] stands for in an array of [n] pixels *)
Definition refl (n : nat) (j : Z) : nat := let m := (j mod (2 * Z.of_nat n))%Z in Z.to_nat (if (m <? Z.of_nat n)%Z then m else 2 * Z.of_nat n - 1 - m)%Z.
Definition pick (l : list R) (j : Z) : R := nth (refl (List.length l) j) l 0.
(** sum of [f k] for [k] from [lo], [n] terms *)
Fixpoint zsum (f : Z -> R) (lo : Z) (n : nat) : R := match n with O => 0 | S m => f lo + zsum f (lo + 1)%Z m end.
(** correlation with the weights [w k], [k] from [lo], [n] of them *)
Definition correlate (w : Z -> R) (lo : Z) (n : nat) (l : list R) : list R := map (fun i => zsum (fun k => w k * pick l (Z.of_nat i + k)) lo n) (seq 0 (List.length l)).
(** ndimage.gaussian_filter1d(l, sd): truncated at 4 sd, weights divided by their sum *)
Definition gauss_radius (sd : R) : nat := Z.to_nat (rfloor (4 * sd + 1 / 2)).
Definition gauss_raw (sd : R) (k : Z) : R := exp (- (1 / 2) * (IZR k * IZR k) / (sd * sd)).
Definition gaussian_filter1d (l : list R) (sd : R) : list R :=
  let r := gauss_radius sd in let tot := zsum (gauss_raw sd) (- Z.of_nat r) (2 * r + 1) in correlate (fun k => gauss_raw sd k / tot) (- Z.of_nat r) (2 * r + 1) l.
(** ndimage.uniform_filter1d(l, size): the mean of [size] pixels, beginning size//2 before *)
Definition uniform_filter1d (l : list R) (size : Z) : @res (list R) :=
  if (size <? 1)%Z then Raise (UserExn 2) else Ok (correlate (fun _ => 1 / IZR size) (- (size / 2)) (Z.to_nat size) l).

(** smooth 627-670: the spectrum and what is returned.  "type == 'uniform'" compares the builtin function, so that 'uniform' is not recognised.  [width] times 2 is taken as an integer; pixels whose error is not finite (boxcar) are not represented *)
Definition smooth (s : spectrum) (width : R) (filtertype : option string) (replace : bool) : spectrum * @res (list R * list R) :=
  let '(ft, width) := match filtertype with None => if Rlt_dec 0 width then ("gaussian"%string, width) else ("boxcar"%string, - width) | Some t => (t, width) end in
  let done := fun f e => ((if replace then Spec (sx s) f e (sunit s) (scont s) (scontop s) (sz s) else s), Ok (f, e)) in
  if String.eqb ft "gaussian" then done (gaussian_filter1d (sflux s) width) (gaussian_filter1d (serr s) width)
  else if String.eqb ft "boxcar" then
    match uniform_filter1d (sflux s) (rfloor (2 * width)), uniform_filter1d (serr s) (rfloor (2 * width)) with
    | Ok f, Ok e => done f e
    | Raise x, _ | _, Raise x => (s, Raise x)
    | _, _ => (s, OutOfFuel)
    end
  else (s, Raise ValueError).
