(** * PcaModel: the class Pca of utils/stats.py 277-513.  Data are kept as rows, one per data point; a matrix product or mean is a sum over
    indices.  numpy.linalg.eig and numpy.linalg.inv are parameters.  Two or more dimensions (numpy.cov of one is no matrix); plots are left out. *)
From Coq Require Import List Bool Arith Reals ZArith.
From Verif Require Import PyBase AlgModel.
Import ListNotations.
Open Scope R_scope.

Definition matrix : Type := nat -> nat -> R.
(** an array with its shape *)
Record arr := Arr { mr : nat; mc : nat; me : matrix }.
Definition sum (n : nat) (f : nat -> R) : R := rsum (map f (seq 0 n)).
Definition tr (f : matrix) : matrix := fun i j => f j i.

(** __init__ 295-317, __calc 286-293: [dat] is self.A, [orig] self._origA, [cache] self._eig *)
Record pca := Pca { orig : list (list R); dat : list (list R); dim : nat; cache : option (list R * matrix) }.
Definition pca_init (p : nat) (rows : list (list R)) (names : option nat) : @res pca :=
  match names with
  | Some k => if Nat.eqb k p then Ok (Pca rows rows p None) else Raise ValueError
  | None => Ok (Pca rows rows p None)
  end.
Definition npts (s : pca) : nat := List.length (dat s).
Definition Amat (s : pca) : matrix := fun i j => nth j (nth i (dat s) []) 0.
Definition colmean (n : nat) (f : matrix) (j : nat) : R := sum n (fun i => f i j) / INR n.
Definition colstd (n : nat) (f : matrix) (j : nat) : R := sqrt (sum n (fun i => (f i j - colmean n f j) * (f i j - colmean n f j)) / INR n).
Definition rowstd (p : nat) (f : matrix) (i : nat) : R := colstd p (tr f) i.
Definition Mmat (s : pca) : matrix := fun i j => Amat s i j - colmean (npts s) (Amat s) j.
Definition Nmat (s : pca) : matrix := fun i j => Mmat s i j / colstd (npts s) (Mmat s) j.
(** getCovarianceMatrix 320-327: numpy.cov divides by n - 1 *)
Definition cov (n : nat) (f : matrix) : matrix := fun j k => sum n (fun i => (f i j - colmean n f j) * (f i k - colmean n f k)) / (INR n - 1).
Definition getCovarianceMatrix (s : pca) : matrix := cov (npts s) (Nmat s).

(** getEigensystem 329-340: the values in descending order (argsort reversed) *)
Fixpoint ins (v : list R) (i : nat) (l : list nat) : list nat :=
  match l with [] => [i] | j :: r => if Rle_dec (nth j v 0) (nth i v 0) then i :: j :: r else j :: ins v i r end.
Definition argsort_rev (v : list R) : list nat := fold_right (ins v) [] (seq 0 (List.length v)).
Definition ordered (e : list R * matrix) : list R * matrix :=
  let sorti := argsort_rev (fst e) in (map (fun i => nth i (fst e) 0) sorti, fun r c => snd e r (nth c sorti 0%nat)).
Definition eigfun : Type := nat -> matrix -> list R * matrix.
Definition system (eig : eigfun) (s : pca) : list R * matrix :=
  match cache s with Some e => e | None => ordered (eig (dim s) (getCovarianceMatrix s)) end.
Definition getEigensystem (eig : eigfun) (s : pca) : pca * (list R * matrix) := (Pca (orig s) (dat s) (dim s) (Some (system eig s)), system eig s).
(** getEnergies 354-360 *)
Definition getEnergies (eig : eigfun) (s : pca) : list R := let v := fst (system eig s) in map (fun x => x / rsum v) v.

(** sigclip 408-424: the limits (one per dimension) are multiplied with the deviations of the data points, one per point; the shapes must
    agree (or there is one point, and everything is nan).  A constant column makes everything nan *)
Definition ltb (x y : R) : bool := if Rlt_dec x y then true else false.
Definition sigclip (s : pca) (sigs : nat -> R) : @res (pca * nat) :=
  let n := npts s in
  let clip (m : nat -> bool) :=
    let keep := map (fun i => nth i (dat s) []) (filter m (seq 0 n)) in
    Ok (Pca (orig s) keep (dim s) None, (n - List.length keep)%nat) in
  if Nat.eqb n 1 then clip (fun _ => false)
  else if Nat.eqb n (dim s) then
    if existsb (fun j => if Req_EM_T (colstd n (Mmat s) j) 0 then true else false) (seq 0 (dim s)) then clip (fun _ => false)
    else clip (fun i => forallb (fun j => ltb (Rabs (Nmat s i j)) (sigs j * rowstd (dim s) (Nmat s) j)) (seq 0 (dim s)))
  else Raise ValueError.
(** reset 426-428 *)
Definition reset (s : pca) : pca := Pca (orig s) (orig s) (dim s) None.

(** project 431-464: self.energies does not exist *)
Definition given {A} (o : option A) : nat := match o with Some _ => 1%nat | None => 0%nat end.
Definition project (eig : eigfun) (s : pca) (vals : option arr) (enthresh : option R) (nPCs : option nat) (cumen : option R) : @res arr :=
  if Nat.ltb 1 (given enthresh + given nPCs + given cumen) then Raise ValueError
  else match enthresh, nPCs, cumen with
  | Some _, _, _ => Raise AttributeError
  | None, None, Some _ => Raise AttributeError
  | None, k, _ =>
      let q := match k with Some q => Nat.min q (dim s) | None => dim s end in
      let V := snd (system eig s) in
      match vals with
      | None => Ok (Arr (npts s) q (fun i c => sum (dim s) (fun j => V j c * Nmat s i j)))
      | Some v => if Nat.eqb (dim s) (mr v) then Ok (Arr (mc v) q (fun i c => sum (dim s) (fun j => V j c * me v j i))) else Raise ValueError
      end
  end.
(** deproject 466-490 *)
Definition invfun : Type := nat -> matrix -> matrix.
Definition deproject (eig : eigfun) (inv : invfun) (s : pca) (a : arr) (normed : bool) : @res arr :=
  let p := dim s in
  if Nat.ltb p (mc a) then Raise ValueError
  else
    let evinv := inv p (tr (snd (system eig s))) in
    let zs := fun i c => if Nat.ltb c (mc a) then me a i c else 0 in
    let proj := fun j i => sum p (fun c => evinv j c * zs i c) in
    Ok (Arr p (mr a) (if normed then proj else fun j i => proj j i * colstd (npts s) (Mmat s) j + colmean (npts s) (Amat s) j)).
(** subtractPC 492-513 (the components by number); the arrays subtracted must have the same shape *)
Definition subtractPC (eig : eigfun) (inv : invfun) (s : pca) (pc : list nat) (vals : option arr) : @res arr :=
  let n := npts s in
  let v := match vals with None => Arr n (dim s) (Amat s) | Some v => Arr (mc v) (mr v) (tr (me v)) end in
  if Nat.eqb (mc v) (dim s) then
    match project eig s None None None None with
    | Ok pcs =>
        if forallb (fun c => Nat.ltb c (dim s)) pc then
          match deproject eig inv s (Arr n (dim s) (fun i c => if existsb (Nat.eqb c) pc then me pcs i c else 0)) false with
          | Ok upc => if Nat.eqb (mr v) n then Ok (Arr n (dim s) (fun i j => (me v i j - me upc j i) * colstd n (Mmat s) j + colmean n (Amat s) j)) else Raise ValueError
          | Raise e => Raise e
          | OutOfFuel => OutOfFuel
          end
        else Raise IndexError
    | Raise e => Raise e
    | OutOfFuel => OutOfFuel
    end
  else Raise ValueError.
