(** * AxModel: the spacing of x-axes, tests of axes and align_spectra, astropysics/spec.py 569-623, 1852-1907

    Over the reals.  Units are not represented: all spectra are taken to have the same unit. *)
From Coq Require Import List Bool Reals ZArith String Arith.
From Verif Require Import PyBase AlgModel CosmoDistModel PhotModel SpecModel SpecLineModel.
Import ListNotations.
Open Scope R_scope.

(** np.convolve(x,(1,-1),mode='valid'): of one pixel the two arguments are exchanged *)
Definition conv_diff (x : list R) : @res (list R) :=
  match x with [] => Raise ValueError | [a] => Ok [a; - a] | _ => Ok (diffs x) end.
Definition getDx (x : list R) : @res (list R) := conv_diff x.
Definition getDlogx (x : list R) (logbase : R) : @res (list R) := conv_diff (map (fun v => ln v / ln logbase) x).
(** np.std *)
Definition std (l : list R) : R := match AlgModel.var l with Some v => sqrt v | None => 0 end.
Definition below (d : @res (list R)) (eps : R) : @res bool := match d with Ok l => Ok (if Rlt_dec (std l) eps then true else false) | Raise e => Raise e | OutOfFuel => OutOfFuel end.
Definition isLinear (x : list R) (eps : R) : @res bool := below (getDx x) eps.
Definition isLogarithmic (x : list R) (eps : R) : @res bool := below (getDlogx x 10) eps.
(** isXMatched 595-609; arrays of one element are subtracted from every pixel, other lengths raise ValueError, hence False *)
Definition isXMatched (x ox : list R) (tol : R) : bool :=
  let test := fun l => if Rlt_dec (std l) tol then true else false in
  if Nat.eqb (List.length x) (List.length ox) then test (map2 Rminus x ox)
  else match x, ox with _, [o] => test (map (fun v => v - o) x) | [v], _ => test (map (fun o => v - o) ox) | _, _ => false end.

(** align_spectra 1852-1907 (interpolation='linear'): the spectra afterwards and what is returned (the positions of the returned objects are those given: with copy=True the changed ones are others) *)
Definition mean_of (l : list R) : R := match AlgModel.mean l with Some m => m | None => 0 end.
Fixpoint contains (needle hay : string) : bool := String.prefix needle hay || match hay with EmptyString => false | String _ r => contains needle r end.
Fixpoint all_res {A B} (f : A -> @res B) (l : list A) : @res (list B) :=
  match l with [] => Ok [] | a :: r => match f a with Ok b => match all_res f r with Ok bs => Ok (b :: bs) | Raise e => Raise e | OutOfFuel => OutOfFuel end | Raise e => Raise e | OutOfFuel => OutOfFuel end end.
(** np.where(reses == max(reses))[0][0] *)
Fixpoint first_max (i : nat) (bi : nat) (b : R) (l : list R) : nat := match l with [] => bi | a :: r => if Rlt_dec b a then first_max (S i) i a r else first_max (S i) bi b r end.
(** resample one after the other; a failure leaves the spectra before it changed *)
Fixpoint resample_all (x : list R) (l : list spectrum) : list spectrum * @res unit :=
  match l with
  | [] => ([], Ok tt)
  | s :: r => let '(s', o) := resample s x true in
              match o with Ok _ => let '(r', o') := resample_all x r in (s' :: r', o') | Raise e => (s' :: r, Raise e) | OutOfFuel => (s' :: r, OutOfFuel) end
  end.
Definition align_spectra (specs : list spectrum) (ressample : string) : list spectrum * @res unit :=
  if negb (contains "super" ressample) && negb (contains "sub" ressample) then (specs, Raise ValueError) else
  match all_res (fun s => match (if contains "log" ressample then getDlogx (sx s) 10 else getDx (sx s)) with Ok l => Ok (mean_of l) | Raise e => Raise e | OutOfFuel => OutOfFuel end) specs with
  | Raise e => (specs, Raise e)
  | OutOfFuel => (specs, OutOfFuel)
  | Ok [] => (specs, Raise ValueError)
  | Ok (a :: r) => match nth_error specs (first_max 1 0 a r) with None => (specs, Raise IndexError) | Some t => resample_all (sx t) specs end
  end.
