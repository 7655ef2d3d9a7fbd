(** * ZfModel: redshifts by fits of templates, zfind of astropysics/spec.py 1967-2107

    Over the reals, from line 2014 on: a spectrum (x, flux, ivar) and templates on its pixels, i.e. the spectrum is logarithmic and the templates match or checkspec and checktemplates are False (resampling is not represented).  numpy.linalg.inv and pinv are arguments; LinAlgError is UserExn 3.  Degrees of freedom of 0 are divided by like any number. *)
From Coq Require Import List Bool Reals ZArith Arith.
From Verif Require Import PyBase AlgModel SpecLineModel PcaModel.
Import ListNotations.
Open Scope R_scope.
Definition LinAlgError : exn := UserExn 3.

(** np.linalg.inv for p by p matrices (None: LinAlgError) and np.linalg.pinv(A)*v for m by p matrices *)
Definition inverter : Type := nat -> matrix -> option matrix.
Definition pinvfit : Type := nat -> nat -> matrix -> (nat -> R) -> nat -> R.

(** lags 2032-2034: a pair is a range, an array the lags themselves *)
Inductive lagarg := LagRange (lo hi : Z) | LagArray (l : list Z).
Definition zrange (lo hi : Z) : list Z := map (fun i => (lo + Z.of_nat i)%Z) (seq 0 (Z.to_nat (hi - lo))).
Definition lag_list (a : lagarg) : list Z := match a with LagRange lo hi => zrange lo hi | LagArray l => l end.
(** ls 2035-2050 *)
Definition lag_order (lags : list Z) : list Z :=
  filter (fun l => (l <? 0)%Z) lags ++ (if existsb (Z.eqb 0) lags then [0%Z] else []) ++ filter (fun l => (0 <? l)%Z) lags.

(** tm 2025-2028: pixels by templates *)
Definition tmatrix (npix : nat) (templates : list (list R)) : @res (nat * matrix) :=
  match templates with
  | [] => if Nat.eqb npix 0 then Ok (0%nat, fun _ _ => 0) else Raise IndexError
  | t :: _ => if Nat.eqb (List.length templates) npix then Ok (List.length t, fun i j => nth j (nth i templates []) 0)
              else if Nat.eqb (List.length t) npix then Ok (List.length templates, fun i j => nth i (nth j templates []) 0) else Raise NameError
  end.
(** slices 2038-2050: the first pixel of the templates and of the spectrum; both parts have npix - |l| pixels *)
Definition off_t (l : Z) : nat := Z.to_nat (- l).
Definition off_s (l : Z) : nat := Z.to_nat l.
Definition shared (n : nat) (l : Z) : nat := (n - Z.to_nat (Z.abs l))%nat.

Record fitted := Fit { f_lag : Z; f_z : option R; f_coeff : list R; f_x : list R; f_flux : list R; f_rchi2 : R }.
Definition req (x y : R) : bool := if Req_EM_T x y then true else false.
(** 2056-2084 for one lag.  pinv of an array without pixels raises LinAlgError *)
Definition fit_lag (inv : inverter) (pinv : pinvfit) (useweights : bool) (x flux ivar : list R) (p : nat) (tm : matrix) (l : Z) : @res fitted :=
  let n := List.length flux in let m := shared n l in
  if Nat.eqb m 0 then Raise LinAlgError else
  let A : matrix := fun i t => tm (off_t l + i)%nat t in
  let v := fun i => nth (off_s l + i)%nat flux 0 in
  let w := fun i => nth (off_s l + i)%nat ivar 0 in
  let AT : matrix := fun t i => A i t * w i in
  let c := match (if useweights then inv p (fun t u => sum m (fun i => AT t i * A i u)) else None) with
           | Some B => fun t => sum p (fun u => B t u * sum m (fun i => AT u i * v i))
           | None => pinv m p A v
           end in
  let fitspec := fun i => sum p (fun t => A i t * c t) in
  let dsq := sum m (fun i => (v i - fitspec i) * (v i - fitspec i)) in
  let dof := IZR (Z.of_nat (List.length (filter (fun u => negb (req u 0)) ivar)) - Z.abs l) in
  let zs := lag_to_z true x l in
  let z := if existsb (fun z => match z with None => true | Some _ => false end) zs then None else Some (sum (List.length zs) (fun i => match nth i zs None with Some z => z | None => 0 end) / INR (List.length zs)) in
  Ok (Fit l z (map c (seq 0 p)) (firstn m (skipn (off_s l) x)) (map fitspec (seq 0 m)) (dsq / dof)).
Fixpoint all_ok {A B} (f : A -> @res B) (l : list A) : @res (list B) :=
  match l with [] => Ok [] | a :: r => match f a with Ok b => match all_ok f r with Ok bs => Ok (b :: bs) | Raise e => Raise e | OutOfFuel => OutOfFuel end | Raise e => Raise e | OutOfFuel => OutOfFuel end end.
(** min of a list (2081); of none a ValueError *)
Definition least (l : list R) : option R := match l with [] => None | a :: r => Some (fold_left Rmin r a) end.
Definition zfind (inv : inverter) (pinv : pinvfit) (x flux ivar : list R) (templates : list (list R)) (lags : lagarg) : @res (list nat * list fitted) :=
  match tmatrix (List.length flux) templates with
  | Raise e => Raise e
  | OutOfFuel => OutOfFuel
  | Ok (p, tm) =>
      match ivar with
      | [] => Raise IndexError
      | i0 :: _ =>
          let useweights := existsb (fun u => negb (req (u - i0) 0)) ivar in
          match all_ok (fit_lag inv pinv useweights x flux ivar p tm) (lag_order (lag_list lags)) with
          | Raise e => Raise e
          | OutOfFuel => OutOfFuel
          | Ok fs => match least (map f_rchi2 fs) with
                     | None => Raise ValueError
                     | Some m => Ok (filter (fun k => req (nth k (map f_rchi2 fs) 0) m) (seq 0 (List.length fs)), fs)
                     end
          end
      end
  end.
