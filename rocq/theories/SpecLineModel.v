(** * SpecLineModel: resampling, air and vacuum wavelengths, lags, line lists and features (astropysics/spec.py 569-763, 1494-1850, 1909-1965, 2109-2145) *)
From Coq Require Import List Bool Reals Lra ZArith String Arith.
From Verif Require Import PyBase CosmoDistModel PhotModel SpecModel.
Import ListNotations.
Open Scope R_scope.

(** ** resample 672-732 (interpolation='linear'), linearize 734-747, logify 749-763.  np.interp is PhotModel.interp, so x must increase; spectra have at least one pixel *)
Definition resample (s : spectrum) (newx : list R) (replace : bool) : spectrum * @res (list R * list R * list R) :=
  let nf := map (fun q => interp q (combine (sx s) (sflux s))) newx in
  let ne := map (fun q => interp q (combine (sx s) (serr s))) newx in
  if replace then
    if Nat.eqb (List.length newx) (List.length (sx s)) then (Spec newx nf ne (sunit s) (scont s) (scontop s) (sz s), Ok (newx, nf, ne)) else (s, Raise ValueError)
  else (s, Ok (newx, nf, ne)).
Definition linspace (a b : R) (n : nat) : list R := map (fun i => a + INR i * ((b - a) / INR (n - 1))) (seq 0 n).
Definition lmin (l : list R) : R := match l with [] => 0 | x :: r => fold_left Rmin r x end.
Definition lmax (l : list R) : R := match l with [] => 0 | x :: r => fold_left Rmax r x end.
Definition or_default (o : option R) (d : R) : R := match o with Some x => x | None => d end.
Definition linearize (s : spectrum) (lower upper : option R) (replace : bool) :=
  resample s (linspace (or_default lower (lmin (sx s))) (or_default upper (lmax (sx s))) (List.length (sx s))) replace.
Definition logify (s : spectrum) (lower upper : option R) (replace : bool) :=
  resample s (map (Rpower 10) (linspace (log10 (or_default lower (lmin (sx s)))) (log10 (or_default upper (lmax (sx s)))) (List.length (sx s)))) replace.
(** getDx(False) 569-579 and getDlogx(False) 581-593 *)
Fixpoint diffs (l : list R) : list R := match l with x :: ((y :: _) as r) => y - x :: diffs r | _ => [] end.
Definition getDx (s : spectrum) : list R := diffs (sx s).
Definition getDlogx (logbase : R) (s : spectrum) : list R := diffs (map (fun x => ln x / ln logbase) (sx s)).

(** ** air_to_vacuum 1909-1936 and vacuum_to_air 1938-1965, element by element *)
Definition air_factor (w : R) : R := let sig2 := (10 ^ 4 / w) ^ 2 in 1 + 64328 / 10 ^ 9 + (294981 / 10 ^ 7) / (146 - sig2) + (25540 / 10 ^ 8) / (41 - sig2).
Definition air_to_vacuum (nouvconv : bool) (w : R) : R := if nouvconv then if Rle_dec 2000 w then w * air_factor w else w else w * air_factor w.
Definition vac_factor (w : R) : R := let wave2 := w * w in 1 + 2735182 / 10 ^ 10 + (1314182 / 10 ^ 4) / wave2 + 276249000 / (wave2 * wave2).
Definition vacuum_to_air (nouvconv : bool) (w : R) : R := let n := w / vac_factor w in if nouvconv then if Rlt_dec n 2000 then n * vac_factor w else n else n.

(** ** lag_to_z 2109-2145 for one lag; None is nan (the mean of no pixels).  np.roll(x,-l)[i] = x[(i+l) mod n] *)
Definition zbase (x : list R) (l : Z) (i : nat) : R := nth (Z.to_nat ((Z.of_nat i + l) mod Z.of_nat (List.length x))) x 0 / nth i x 0 - 1.
Definition mean (l : list R) : option R := match l with [] => None | _ => Some (fold_right Rplus 0 l / INR (List.length l)) end.
Definition lag_to_z (avgbad : bool) (x : list R) (l : Z) : list (option R) :=
  let n := List.length x in
  if (0 <=? l)%Z then
    let stop := if (l =? 0)%Z then O else (n - Z.to_nat l)%nat in
    let fill := if avgbad then mean (map (zbase x l) (seq 0 stop)) else Some 0 in
    map (fun i => if Nat.ltb i stop then Some (zbase x l i) else fill) (seq 0 n)
  else
    let m := Z.to_nat (- l) in
    let fill := if avgbad then mean (map (zbase x l) (seq m (n - m))) else Some 0 in
    map (fun i => if Nat.ltb i m then fill else Some (zbase x l i)) (seq 0 n).

(** ** load_line_list 1741-1849, for a list of KnownFeature objects (returns the list; the argument is changed in place).  [ord] is the iteration order of Python sets. *)
Record known := Known { kloc : R; kname : string }.
Inductive ondup := DRaise | DWarn | DRemove | DIgnore | DInvalid.
Section Lines.
Variable ord : list nat -> list nat.
Definition near (tol a b : R) : bool := if Rle_dec (Rabs (a - b)) tol then true else false.
Definition dups_of (tol : R) (locs : list R) (i : nat) : list nat := filter (fun j => near tol (nth j locs 0) (nth i locs 0)) (seq 0 (List.length locs)).
Fixpoint dupsets (tol : R) (locs : list R) (is ignores : list nat) : list (list nat) :=
  match is with
  | [] => []
  | i :: r => if existsb (Nat.eqb i) ignores then dupsets tol locs r ignores
              else let d := dups_of tol locs i in
                   if Nat.ltb 1 (List.length d) then ord d :: dupsets tol locs r (ignores ++ d) else dupsets tol locs r ignores
  end.
(** sorted(torem,reverse=True) and the deletions *)
Fixpoint insert_desc (i : nat) (l : list nat) : list nat := match l with [] => [i] | j :: r => if Nat.ltb i j then j :: insert_desc i r else i :: l end.
Definition sort_desc (l : list nat) : list nat := fold_right insert_desc [] l.
Fixpoint del_nth {B} (i : nat) (l : list B) : list B := match i, l with _, [] => [] | O, _ :: r => r | S i, a :: r => a :: del_nth i r end.
Fixpoint delete_all {B} (is : list nat) (l : list B) : @res (list B) := match is with [] => Ok l | i :: r => if Nat.ltb i (List.length l) then delete_all r (del_nth i l) else Raise IndexError end.
(** list.sort with a key: stable *)
Fixpoint insert_key {B} (key : B -> R) (a : B) (l : list B) : list B := match l with [] => [a] | b :: r => if Rle_dec (key a) (key b) then a :: l else b :: insert_key key a r end.
Definition sort_key {B} (key : B -> R) (l : list B) : list B := fold_right (insert_key key) [] l.
Definition load_line_list (tol : option R) (o : ondup) (sort : Z) (kfs : list known) : @res (list known) :=
  let tol := or_default tol 0 in
  let locs := map kloc kfs in
  let ds := dupsets tol locs (seq 0 (List.length kfs)) [] in
  let torem := match o with DRemove => flat_map (fun d => removelast d) ds | _ => [] end in
  match ds, o with
  | _ :: _, DRaise => Raise IndexError
  | _ :: _, DInvalid => Raise ValueError
  | _, _ =>
    match delete_all (sort_desc torem) kfs with
    | Ok l => Ok (if (sort =? 0)%Z then l else if (0 <? sort)%Z then sort_key kloc l else sort_key (fun k => - kloc k) l)
    | e => e
    end
  end.
End Lines.

(** ** SpectralFeature units 1519-1543 and the line flux 1546-1668 (fit=False), KnownFeature 1694-1738 *)
Section Feature.
Variables c h ergperev : R.
Record feature := Feature { frest : R; fcenter : option R; fcerr : option R; fextent : R * R; funit : unit_ }.
Definition newFeature (extent : R * R) (u : unit_) : feature := Feature 1 None None extent u.
Definition getCenter (f : feature) : R := match fcenter f with Some x => x | None => (fst (fextent f) + snd (fextent f)) / 2 end.
Definition fApply (f : feature) (v : unit_) : feature :=
  let t := xtrans c h ergperev (funit f) v in
  let o := getCenter f in
  Feature (t (frest f)) (Some (t o)) (match fcerr f with Some e => Some ((t (o + e) + t (o - e)) / 2) | None => None end) (t (fst (fextent f)), t (snd (fextent f))) v.
Definition featSetUnit (f : feature) (name : string) : feature * @res unit :=
  match strToUnit name with
  | Ok v => if unit_eqb v (funit f) then (f, Ok tt) else (fApply f v, Ok tt)
  | Raise e => (f, Raise e)
  | OutOfFuel => (f, OutOfFuel)
  end.
(** KnownFeature: the strength given to the constructor is not kept *)
Record kfeature := KF { kl : R; ku : unit_ }.
Definition kSetUnit (f : kfeature) (name : string) : kfeature * @res unit :=
  match strToUnit name with
  | Ok v => if unit_eqb v (ku f) then (f, Ok tt) else (KF (xtrans c h ergperev (ku f) v (kl f)) v, Ok tt)
  | Raise e => (f, Raise e)
  | OutOfFuel => (f, OutOfFuel)
  end.
Definition getUnitLoc (f : kfeature) (name : string) : kfeature * @res R :=
  if String.eqb name (unit_name (ku f)) then (f, Ok (kl f))
  else match kSetUnit f name with
       | (f1, Ok _) => match kSetUnit f1 (unit_name (ku f)) with (f2, Ok _) => (f2, Ok (kl f1)) | (f2, Raise e) => (f2, Raise e) | (f2, OutOfFuel) => (f2, OutOfFuel) end
       | (f1, Raise e) => match kSetUnit f1 (unit_name (ku f)) with (f2, Raise y) => (f2, Raise y) | (f2, _) => (f2, Raise e) end
       | (f1, OutOfFuel) => (f1, OutOfFuel)
       end.
End Feature.
(** numpy.searchsorted on an increasing x (left), slices and broadcasting of y*dx (a length of one is stretched) *)
Definition searchsorted (x : list R) (v : R) : nat := List.length (filter (fun y => if Rlt_dec y v then true else false) x).
Definition slice {B} (i j : nat) (l : list B) : list B := firstn (j - i) (skipn i l).
Fixpoint half_steps (l : list R) : list R := match l with a :: ((_ :: b :: _) as r) => (b - a) / 2 :: half_steps r | _ => [] end.
(** numpy.convolve(l,[0.5,0,-0.5],mode='valid'): with fewer than three elements the roles of both arrays are exchanged *)
Definition convolve_valid (l : list R) : @res (list R) :=
  match l with [] => Raise ValueError | [a] => Ok [a / 2; 0; - (a / 2)] | [a; b] => Ok [b / 2; - (a / 2)] | _ => Ok (half_steps l) end.
Definition bmult (a b : list R) : @res (list R) :=
  if Nat.eqb (List.length a) (List.length b) then Ok (map2 Rmult a b)
  else match a, b with [x], _ => Ok (map (fun y => x * y) b) | _, [y] => Ok (map (fun x => x * y) a) | _, _ => Raise ValueError end.
Definition sum (l : list R) : R := fold_right Rplus 0 l.
(** [cont] is the continuum array (None: zero) *)
Definition line_flux (x y : list R) (cont : option (list R)) (extent : R * R) : @res R :=
  let x1 := Rmin (fst extent) (snd extent) in let x2 := Rmax (fst extent) (snd extent) in
  let i1 := searchsorted x x1 in let i2 := searchsorted x x2 in
  let ys := slice i1 i2 y in
  let cs := match cont with Some l => slice i1 i2 l | None => map (fun _ => 0) ys end in
  let d1 := match i1 with O => O | S k => k end in
  let d2 := match i2 with O => O | S _ => S i2 end in
  match convolve_valid (slice d1 d2 x) with
  | Ok dx => match bmult (map2 Rminus ys cs) dx with Ok l => Ok (sum l) | Raise e => Raise e | OutOfFuel => OutOfFuel end
  | Raise e => Raise e
  | OutOfFuel => OutOfFuel
  end.
