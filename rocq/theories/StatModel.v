(** * StatModel: utils/stats.py.  Floats are reals, nan and inf are [None]; arrays are lists. *)
From Coq Require Import List Bool Arith Reals ZArith.
From Verif Require Import PyBase AlgModel.
Import ListNotations.
Open Scope R_scope.

(** ** Robust statistics, 185-275 *)
(** scipy.stats.scoreatpercentile for a whole percentage below 100: linear interpolation in the sorted values; IndexError for no values *)
Definition score (x : list R) (per : nat) : option R :=
  let s := sort x in let k := (per * (List.length x - 1))%nat in
  match x with
  | [] => None
  | _ => let f := INR (k mod 100) / 100 in
         Some (if (k mod 100 =? 0)%nat then nth (k / 100) s 0 else nth (k / 100) s 0 + (nth (k / 100 + 1) s 0 - nth (k / 100) s 0) * f)
  end.
(** interquartile_range 185-207; [ei] is erfinv(0.5) *)
Definition interquartile_range (ei : R) (x : list R) (scale : bool) : option R :=
  match score x 75, score x 25 with
  | Some a, Some b => Some (if scale then (a - b) / (sqrt 8 * ei) else a - b)
  | _, _ => None
  end.
(** median_absolute_deviation 209-236: the argument cenestimator is not used *)
Definition mad (x : list R) : option R :=
  match median x with Some m => median (map (fun v => Rabs (v - m)) x) | None => None end.
Definition median_absolute_deviation (ei : R) (x : list R) (scale : bool) (cen : list R -> option R) : option R :=
  match mad x with Some r => Some (if scale then r / (sqrt 2 * ei) else r) | None => None end.
(** biweight_midvariance 238-275; a division by zero gives nan or inf *)
Definition sq (u : R) : R := u * u.
Definition biweight (x : list R) (scale : R) (cen : list R -> option R) : option (option R * R) :=
  match cen x, mad x with
  | Some q, Some m =>
      Some (if Req_EM_T (scale * m) 0 then None
            else
              let u v := sq ((v - q) / (scale * m)) in
              let I v := if Rle_dec (u v) 1 then 1 else 0 in
              let numer := rsum (map (fun v => I v * sq (v - q) * (1 - u v) ^ 4) x) in
              let denom := sq (rsum (map (fun v => I v * (1 - u v) * (1 - 5 * u v)) x)) in
              if Req_EM_T denom 0 then None else Some (rlen x * numer / denom), q)
  | _, _ => None
  end.

(** ** binned_weights 146-181 (without log): [n] is overwritten by the counts of numpy.histogram, which has 10 bins from the smallest to
    the largest value (one unit wide if these are equal), the last bin closed on the right *)
Definition lo (x : list R) : R := nth 0 (sort x) 0.
Definition hi (x : list R) : R := nth (List.length x - 1) (sort x) 0.
Definition hrange (x : list R) : R * R := if Req_EM_T (lo x) (hi x) then (lo x - 1/2, hi x + 1/2) else (lo x, hi x).
Definition edge (x : list R) (i : nat) : R := fst (hrange x) + (snd (hrange x) - fst (hrange x)) * INR i / 10.
Definition in_bin (x : list R) (i : nat) (v : R) : bool :=
  if Rle_dec (edge x i) v then if Rlt_dec v (edge x (i + 1)) then true else if (i =? 9)%nat then if Req_EM_T v (edge x 10) then true else false else false else false.
Definition bin_count (x : list R) (i : nat) : nat := List.length (filter (in_bin x i) x).
(** one value after the loop: the last assignment that applies (176-179) *)
Definition weight (x : list R) (v : R) : R :=
  let w i := 1 / INR (bin_count x i) in
  let r := fold_left (fun r i => if Rle_dec (edge x i) v then if Rlt_dec v (edge x (i + 1)) then w i else r else r) (seq 0 10) 0 in
  if Req_EM_T (edge x 10) v then w 9%nat else r.
Definition binned_weights (x : list R) (n : nat) : @res (list R) := match x with [] => Raise ValueError | _ => Ok (map (weight x) x) end.

(** ** moments 62-143.  An array of any dimension: its shape and its values by multi-index; powers are natural numbers *)
Record nd := Nd { shape : list nat; at_ : list nat -> R }.
Fixpoint indices (shp : list nat) : list (list nat) :=
  match shp with [] => [[]] | n :: r => flat_map (fun i => map (cons i) (indices r)) (seq 0 n) end.
Definition total (a : nd) : R := rsum (map (at_ a) (indices (shape a))).
Definition coord (axes : list (list R)) (d : nat) (ix : list nat) : R := nth (nth d ix 0%nat) (nth d axes []) 0.
Inductive order := MScalar (m : nat) | MSeq (ms : list nat).
Inductive moment := MArray (l : list R) | MValue (v : R).
Definition rprod (l : list R) : R := fold_right Rmult 1 l.
Definition stdev (l : list R) : R := match var l with Some v => sqrt v | None => 0 end.
Definition mapm (f : R -> R) (m : moment) : moment := match m with MArray l => MArray (map f l) | MValue v => MValue (f v) end.
Definition moments (a : nd) (ms : order) (axes : option (list (list R))) (bg : option R) (norm std : bool) : @res moment :=
  (* a scalar background (a false one is not subtracted) *)
  let a := match bg with Some b => Nd (shape a) (fun ix => at_ a ix - b) | None => a end in
  let n := List.length (shape a) in
  let ok := match axes with None => true | Some l => Nat.eqb (List.length l) n && forallb (fun p => Nat.eqb (List.length (fst p)) (snd p)) (combine l (shape a)) end in
  if ok then
    let axes := match axes with None => map (fun s => map INR (seq 0 s)) (shape a) | Some l => l end in
    let term (p : list nat -> R) := rsum (map (fun ix => at_ a ix * p ix) (indices (shape a))) in
    match ms with
    | MScalar m =>
        let r := map (fun d => term (fun ix => coord axes d ix ^ m)) (seq 0 n) in
        let r := if std then map2 (fun x s => x / s) r (map (fun ax => stdev ax ^ m) axes) else r in
        Ok (MArray (if norm then map (fun x => x / total a) r else r))
    | MSeq l =>
        if Nat.eqb (List.length l) n then
          let r := term (fun ix => rprod (map2 (fun m d => coord axes d ix ^ m) l (seq 0 n))) in
          let r := if std then r / rprod (map2 (fun m ax => stdev ax ^ m) l axes) else r in
          Ok (MValue (if norm then r / total a else r))
        else Raise ValueError
    end
  else Raise ValueError.
