(** * BandModel: photometric bands given as tables (astropysics/phot.py 147-695: Band and ArrayBand).
    Floats are reals; x is one-dimensional and not empty.  np.argsort is a stable sort by x; scipy.integrate.simps is
    written out (even='avg'); np.interp is PhotModel.interp.  Left out: repeated x values and a response that is constant
    and not positive (both give nan), spline interpolation, FunctionSpectrum arguments, plotting, sources and names. *)
From Coq Require Import Reals List Bool String.
From Verif Require Import PyBase SpecModel PhotModel.
Import ListNotations.
Open Scope R_scope.

Definition lt_ (a b : R) : bool := if Rlt_dec a b then true else false.
Definition le_ (a b : R) : bool := if Rle_dec a b then true else false.
(** max() and min() *)
Definition lmax (l : list R) : R := match l with [] => 0 | a :: r => fold_right Rmax a r end.
Definition lmin (l : list R) : R := match l with [] => 0 | a :: r => fold_right Rmin a r end.
(** x[argsort(x)], y[argsort(x)] *)
Fixpoint insx {A} (p : R * A) (l : list (R * A)) : list (R * A) := match l with [] => [p] | q :: r => if Rle_dec (fst p) (fst q) then p :: l else q :: insx p r end.
Definition sortx {A} (l : list (R * A)) : list (R * A) := fold_right insx [] l.
(** scipy.integrate.simps(y,x): _basic_simps with the spacings of x, and the average of the two ways to treat an even number of points *)
Fixpoint basic (p : list (R * R)) : R :=
  match p with
  | (x0, y0) :: r =>
      match r with
      | (x1, y1) :: q =>
          match q with
          | (x2, y2) :: _ => let h0 := x1 - x0 in let h1 := x2 - x1 in let hs := h0 + h1 in hs / 6 * (y0 * (2 - h1 / h0) + y1 * (hs * hs / (h0 * h1)) + y2 * (2 - h0 / h1)) + basic q
          | [] => 0
          end
      | [] => 0
      end
  | [] => 0
  end.
Definition trap (a b : R * R) : R := 1 / 2 * (fst b - fst a) * (snd a + snd b).
Definition simps (p : list (R * R)) : R :=
  if Nat.odd (List.length p) then basic p
  else match p, rev p with
       | a :: b :: _, z :: y :: _ => (trap y z + basic (removelast p) + (trap a b + basic (tl p))) / 2
       | _, _ => 0
       end.
(** np.interp(0,[u0,u1],[v0,v1]) for any order of u0 and u1 *)
Definition interp2 (u0 u1 v0 v1 : R) : R := if Rlt_dec u1 0 then v1 else if Rlt_dec 0 u0 then v0 else if Req_EM_T u1 0 then v1 else (v1 - v0) / (u1 - u0) * (0 - u0) + v0.
(** _computeMoments 613-635: the centre, and the width (IndexError with fewer than two strict crossings of one half) *)
Definition scale_y (k : R) (p : list (R * R)) : list (R * R) := map (fun q => (fst q, snd q * k)) p.
Fixpoint crossings (prev : R * R) (p : list (R * R)) : list ((R * R) * (R * R)) := match p with [] => [] | q :: r => (if lt_ (snd q * snd prev) 0 then [(prev, q)] else []) ++ crossings q r end.
Definition moments (p : list (R * R)) : R * @res R :=
  let y := map (fun q => (fst q, snd q / lmax (map snd p))) p in
  let yn := scale_y (1 / simps y) y in
  let cen := simps (map (fun q => (fst q, fst q * snd q)) yn) in
  (cen,
   if lt_ (1 / 2) (snd (hd (0, 0) y)) || lt_ (1 / 2) (snd (last y (0, 0)))
   then Ok (sqrt (simps (map (fun q => (fst q - cen, (fst q - cen) * (fst q - cen) * snd q)) yn) * 8 * ln 2))
   else let yo := map (fun q => (fst q, snd q - 1 / 2)) y in
        match crossings (last yo (0, 0)) yo with
        | (l0, l1) :: (u0, u1) :: _ => Ok (interp2 (snd u0) (snd u1) (fst u0) (fst u1) - interp2 (snd l0) (snd l1) (fst l0) (fst l1))
        | _ => Raise IndexError
        end).
Record band := Band { pts : list (R * R); bunit : unit_; bnorm : bool; bN : R; bcopy : bool; cen : R; fwhm : R; zpt : R }.
(** ArrayBand.__init__ 571-600: S[sorti] fails for an S shorter than x and drops the end of a longer one, so the test of the shapes never fails *)
Definition newArrayBand (x S : list R) (copyonaccess normalized : bool) (unit : string) : @res band :=
  if (List.length S <? List.length x)%nat then Raise IndexError
  else
    let p := sortx (combine x S) in
    let m := lmin (map snd p) in
    let p := if lt_ m 0 then map (fun q => (fst q, snd q - m)) p else p in
    let N := lmax (map snd p) in
    let p := if normalized then map (fun q => (fst q, snd q / N)) p else p in
    match moments p with
    | (c, Ok w) => match strToUnit unit with Ok u => Ok (Band p u normalized N copyonaccess c w 1) | Raise e => Raise e | OutOfFuel => OutOfFuel end
    | (_, Raise e) => Raise e
    | (_, OutOfFuel) => OutOfFuel
    end.
(** normalized = val 638-646: S has no setter, so the augmented assignment fails after the in-place operation on what S returned *)
Definition setNorm (b : band) (val : bool) : band * @res unit :=
  if Bool.eqb val (bnorm b) then (b, Ok tt)
  else if bcopy b then (b, Raise AttributeError)
  else (Band (if bnorm b then scale_y (bN b) (pts b) else map (fun q => (fst q, snd q / bN b)) (pts b)) (bunit b) (bnorm b) (bN b) (bcopy b) (cen b) (fwhm b) (zpt b), Raise AttributeError).
Section Units.
Variables c h ergperev : R.
(** _applyUnits 603-609 inside HasSpecUnits._setUnit (spec.py 276-296), which puts the unit back but not x and S when it fails *)
Definition setBUnit (b : band) (name : string) : band * @res unit :=
  match strToUnit name with
  | Ok v =>
      if unit_eqb v (bunit b) then (b, Ok tt)
      else
        let p := map (xftrans c h ergperev (bunit b) v) (pts b) in
        let mx := lmax (map snd p) in
        let p := map (fun q => (fst q, snd q / mx)) p in
        let p := if bnorm b then p else map (fun q => (fst q, snd q / bN b)) p in
        match moments p with
        | (cn, Ok w) => (Band p v (bnorm b) (bN b) (bcopy b) cn w (zpt b), Ok tt)
        | (cn, Raise e) => (Band p (bunit b) (bnorm b) (bN b) (bcopy b) cn (fwhm b) (zpt b), Raise e)
        | (cn, OutOfFuel) => (b, OutOfFuel)
        end
  | Raise e => (b, Raise e)
  | OutOfFuel => (b, OutOfFuel)
  end.
(** __lt__, __le__, __gt__, __ge__ 206-248: the other band is converted, compared and converted back; None is NotImplemented *)
Definition compare (rel : R -> R -> bool) (self other : band) : band * @res (option bool) :=
  let '(o1, r) := setBUnit other (unit_name (bunit self)) in
  let '(o2, r2) := setBUnit o1 (unit_name (bunit other)) in
  (o2, match r2 with Ok _ => Ok (match r with Ok _ => Some (rel (cen self) (cen o1)) | _ => None end) | Raise e => Raise e | OutOfFuel => OutOfFuel end).
(** isOverlapped 376-391 *)
Definition isOverlapped (b : band) (x : list R) : bool := le_ (cen b + fwhm b / 2) (lmax x) && le_ (lmin x) (cen b - fwhm b / 2).
(** the end of computeFlux 447-456 *)
Definition finish (b : band) (overlapcheck : bool) (p : list (R * R)) : @res R :=
  if overlapcheck && negb (isOverlapped b (map fst p)) then Raise ValueError
  else Ok (simps (sortx (map (fun q => (fst q, match ptype (bunit b) with Wav => snd q * fst q | _ => snd q / fst q end)) p))).
Definition resolution (x : list R) : R := INR (List.length x) / (lmax x - lmin x).
(** computeFlux 403-456 of an array *)
Definition arrayFlux (b : band) (y : list R) (overlapcheck : bool) : @res R :=
  if negb (List.length y =? List.length (pts b))%nat then Raise ValueError else finish b overlapcheck (combine (map fst (pts b)) y).
(** the product of band and spectrum, on the x-axis of the one or the other *)
Definition product (b : band) (s : spectrum) (align : option bool) : list (R * R) :=
  let al := match align with Some a => a | None => lt_ (resolution (sx s)) (resolution (map fst (pts b))) end in
  if al then map (fun q => (fst q, snd q * interp (fst q) (sortx (combine (sx s) (sflux s))))) (pts b)
  else map (fun q => (fst q, interp (fst q) (sortx (pts b)) * snd q)) (combine (sx s) (sflux s)).
(** computeFlux of a spectrum: the spectrum and the flux *)
Definition computeFlux (b : band) (s : spectrum) (align : option bool) (overlapcheck : bool) : spectrum * @res R :=
  let '(s1, r) := setUnit c h ergperev s (unit_name (bunit b)) in
  let '(s2, r2) := setUnit c h ergperev s1 (unit_name (sunit s)) in
  (s2, match r2 with
       | Ok _ => match r with Ok _ => finish b overlapcheck (product b s1 align) | Raise e => Raise e | OutOfFuel => OutOfFuel end
       | Raise e => Raise e | OutOfFuel => OutOfFuel end).
(** computeMag 393-401, computeZptFromSpectrum 458-469 *)
Definition computeMag (b : band) (s : spectrum) (align : option bool) (ov : bool) : spectrum * @res R :=
  let '(s', r) := computeFlux b s align ov in (s', match r with Ok v => Ok (fluxToMag (v / zpt b)) | Raise e => Raise e | OutOfFuel => OutOfFuel end).
Definition computeZpt (b : band) (s : spectrum) (align : option bool) (ov : bool) : band * spectrum * @res unit :=
  let '(s', r) := computeFlux b s align ov in
  match r with Ok v => (Band (pts b) (bunit b) (bnorm b) (bN b) (bcopy b) (cen b) (fwhm b) v, s', Ok tt) | Raise e => (b, s', Raise e) | OutOfFuel => (b, s', OutOfFuel) end.
End Units.
