(** * PlModel: the data of plots (astropysics/plotting.py: cumulative_plot 910-1027, split_histograms 1028-1105, square_subplot_dims 390-398).
    Only comparisons of the data are used, so that they are elements of any totally ordered type.  Left out: everything drawn, integer arrays (edges are rounded
    when they are put into them), nan, roundoff of ceil(sqrt(n)), labels. *)
From Coq Require Import List Arith Bool Reals.
From Verif Require Import PyBase.
Import ListNotations.

Section Plots.
Context {A : Type}.
Variable leb : A -> A -> bool.
Definition ltb (a b : A) : bool := negb (leb b a).
(** numpy's sort *)
Fixpoint insert (a : A) (l : list A) : list A := match l with [] => [a] | b :: r => if leb a b then a :: l else b :: insert a r end.
Definition sort (l : list A) : list A := fold_right insert [] l.

(** cumulative_plot 959-985: pairs of x and y *)
Definition cumulative (data : list A) (nlt : bool) (lo hi : option A) : @res (list (A * nat)) :=
  let x := sort data in
  let x := if nlt then x else rev x in
  let p := combine x (seq 0 (List.length data)) in
  match (match lo with
         | None => Ok p
         | Some l => match (if nlt then Some l else hi) with
                     | Some front => Ok ((front, 0) :: filter (fun q => ltb l (fst q)) p)
                     | None => Raise TypeError   (* None put into an array *)
                     end
         end) with
  | Ok p1 =>
      match hi with
      | None => Ok p1
      | Some h => let p2 := filter (fun q => ltb (fst q) h) p1 in
                  match (if nlt then Some h else lo), rev p2 with
                  | Some back, q :: _ => Ok (p2 ++ [(back, S (snd q))])
                  | None, _ => Raise TypeError
                  | _, [] => Raise IndexError   (* y[-1] *)
                  end
      end
  | r => r
  end.
(** frac 987-990 *)
Definition scaled (f : R) (y : list nat) : list R := map (fun k => INR k * f / INR (last y 0%nat))%R y.

(** split_histograms 1057-1078: the groups; colors and styles are given by their numbers *)
Fixpoint groups (data : list (A * A)) (edges : list A) : @res (list (list A)) :=
  match edges with
  | l :: ((u :: _) as r) =>
      if ltb l u then match groups data r with Ok g => Ok (map fst (filter (fun q => leb l (snd q) && ltb (snd q) u) data) :: g) | e => e end
      else Raise ValueError
  | _ => Ok []
  end.
Definition splitHistograms (vals edgevals edges : list A) (colors styles : option nat) : @res (list (list A)) :=
  let wrong o := match o with Some k => negb (Nat.eqb (List.length edges - 1) k) | None => false end in
  if Nat.ltb (List.length edges) 2 then Raise ValueError
  else if wrong colors || wrong styles || negb (Nat.eqb (List.length vals) (List.length edgevals)) then Raise ValueError
  else groups (combine vals edgevals) edges.
End Plots.

(** square_subplot_dims 390-398 *)
Fixpoint addRows (fuel ncols nrows n : nat) : option nat :=
  if Nat.ltb (ncols * nrows) n then match fuel with 0 => None | S f => addRows f ncols (S nrows) n end else Some nrows.
Definition squareDims (n : nat) : option (nat * nat) := let ncols := Nat.sqrt_up n in option_map (fun r => (r, ncols)) (addRows (S n) ncols 0 n).
