(** * AlgModel: searching, masking, clipping (astropysics/utils/alg.py).
    Arrays of floats are lists of reals; NaN in the data is not modelled, a NaN produced by an average of
    nothing is [None]. *)
From Coq Require Import Reals ZArith List Bool Arith.
From Verif Require Import PyBase.
Import ListNotations.
Open Scope R_scope.

Definition Rltb (x y : R) : bool := if Rlt_dec x y then true else false.
Definition Rleb (x y : R) : bool := if Rle_dec x y then true else false.

(** numpy.searchsorted (side left) of a sorted array: the first index whose element is not below [v]. *)
Fixpoint searchsorted (a : list R) (v : R) : nat :=
  match a with [] => 0%nat | x :: r => if Rlt_dec x v then S (searchsorted r v) else 0%nat end.
(** nearestsorted 52-86, one value; [a[i-1]] with i=0 is the last element (Python index -1) *)
Definition nearest1 (a : list R) (v : R) : @res (R * nat) :=
  let i := searchsorted a v in
  let i := if (length a <=? i)%nat then (Z.of_nat i - 1)%Z else Z.of_nat i in
  match py_get a i, py_get a (i - 1) with
  | Some ai, Some am =>
      let i := if Rlt_dec (Rabs (am - v)) (Rabs (ai - v)) then (i - 1)%Z else i in
      match py_get a i with Some x => Ok (x, Z.to_nat i) | None => Raise IndexError end
  | _, _ => Raise IndexError
  end.
(** array of values: element by element (the indices are computed for all values before any is used) *)
Fixpoint nearest (a : list R) (vs : list R) : @res (list (R * nat)) :=
  match vs with
  | [] => Ok []
  | v :: r => match nearest1 a v, nearest a r with Ok x, Ok l => Ok (x :: l) | _, _ => Raise IndexError end
  end.

(** crossmask 125-188 *)
Definition roll1 {A} (l : list A) : list A := match rev l with [] => [] | x :: r => x :: rev r end.  (* numpy.roll(a,1) *)
Definition map2 {A B C} (f : A -> B -> C) (l : list A) (k : list B) : list C := map (fun p => f (fst p) (snd p)) (combine l k).
Definition crossmask (x : list R) (t : R) (belowtoabove : bool) : @res (list bool) :=
  let a := map (fun v => if belowtoabove then Rltb v t else Rltb t v) x in
  let b := map (fun v => if belowtoabove then Rleb t v else Rleb v t) x in
  match map2 andb (roll1 a) b with [] => Raise IndexError | _ :: m => Ok (false :: m) end.

(** numpy: sum, mean, var, sort, median of a 1D array *)
Definition rsum (l : list R) : R := fold_right Rplus 0 l.
Definition rlen (l : list R) : R := INR (length l).
Definition mean (l : list R) : option R := match l with [] => None | _ => Some (rsum l / rlen l) end.
Definition var (l : list R) : option R :=
  match mean l with None => None | Some m => Some (rsum (map (fun x => (x - m) * (x - m)) l) / rlen l) end.
Fixpoint insort (x : R) (l : list R) : list R :=
  match l with [] => [x] | y :: r => if Rle_dec x y then x :: l else y :: insort x r end.
Definition sort (l : list R) : list R := fold_right insort [] l.
Definition median (l : list R) : option R :=
  let s := sort l in let n := length l in
  match l with
  | [] => None
  | _ => Some (if Nat.odd n then nth (n / 2) s 0 else (nth (n / 2 - 1) s 0 + nth (n / 2) s 0) / 2)
  end.
(** estimate_background 310-350 (1D); other strings raise ValueError *)
Inductive method := MMedian | MMean | M32 | M2515 | M21 | MScalar (x : R) | MFun (f : list R -> option R) | MNone.
Definition comb (p q : R) (l : list R) : option R :=
  match median l, mean l with Some a, Some b => Some (p * a - q * b) | _, _ => None end.
Definition background (l : list R) (m : method) : option R :=
  match m with
  | MNone => Some 0 | MMedian => median l | MMean => mean l | M32 => comb 3 2 l | M2515 => comb (5/2) (3/2) l | M21 => comb 2 1 l
  | MScalar x => Some x | MFun f => f l
  end.
(** data[mask] *)
Fixpoint select (d : list R) (m : list bool) : list R :=
  match d, m with x :: r, b :: k => if b then x :: select r k else select r k | _, _ => [] end.
Definition count (m : list bool) : nat := length (filter (fun b => b) m).
(** sigma_clip 255-307; one pass; comparisons with NaN are False *)
Definition clip1 (vf : list R -> option R) (cen : method) (sig : R) (d : list R) (m : list bool) : list bool :=
  let s := select d m in
  map (fun x => match background s cen, vf s with
                | Some c, Some v => Rleb ((x - c) * (x - c)) (v * (sig * sig)) | _, _ => false end) d.
Fixpoint clipn (vf : list R -> option R) (cen : method) (sig : R) (d : list R) (n : nat) (m : list bool) : list bool :=
  match n with O => m | S n => clipn vf cen sig d n (clip1 vf cen sig d m) end.
(** the loop for iters=None *)
Fixpoint clipall (fuel : nat) (vf : list R -> option R) (cen : method) (sig : R) (d : list R) (lastrej : nat) (m : list bool) : @res (list bool) :=
  match fuel with
  | O => OutOfFuel
  | S f => if (count m =? lastrej)%nat then Ok m else clipall f vf cen sig d (count m) (clip1 vf cen sig d m)
  end.
Definition sigma_clip (fuel : nat) (d : list R) (sig : R) (iters : option nat) (cen : method) (vf : list R -> option R) : @res (list R * list bool) :=
  let m0 := map (fun _ => true) d in
  match (match iters with Some n => Ok (clipn vf cen sig d n m0) | None => clipall fuel vf cen sig d (count m0 + 1) m0 end) with
  | Ok m => Ok (select d m, m) | Raise e => Raise e | OutOfFuel => OutOfFuel
  end.

(** lin_to_log_rescale 88-123, base 10 or another positive base but 1 (float input; None as base raises).  A maximum of 0 after the
    shift is a division by zero, giving NaN ([None]). *)
Definition rmin (l : list R) : R := fold_right Rmin (hd 0 l) l.
Definition rmax (l : list R) : R := fold_right Rmax (hd 0 l) l.
Definition lin_to_log_rescale (val : list R) (lower upper base : R) : @res (list (option R)) :=
  match val with [] => Raise ValueError | _ =>
    if Rlt_dec upper lower then Raise ValueError
    else let lo := Rpower base lower in let up := Rpower base upper in
         let v := map (fun x => x - rmin val) val in
         let mx := rmax v in
         Ok (map (fun x => if Req_EM_T mx 0 then None else Some (ln (x * ((up - lo) / mx) + lo) / ln base)) v)
  end.
