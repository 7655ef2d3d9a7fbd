(** * GridModel: astropysics/utils/alg.py 190-226 (nd_grid).
    Arrays are flat lists in C order with a shape; a transposed array is a function of the index. *)
From Coq Require Import List Arith Bool.
From Verif Require Import PyBase.
Import ListNotations.

Section Grid.
Context {A : Type}.
Fixpoint prod (l : list nat) : nat := match l with [] => 1 | n :: r => n * prod r end.
Fixpoint drop_at {B} (i : nat) (l : list B) : list B := match l, i with [], _ => [] | _ :: r, 0 => r | a :: r, S j => a :: drop_at j r end.
(** numpy: position of an index in C order, repeat, reshape, element *)
Fixpoint pos (shape idx : list nat) : option nat :=
  match shape, idx with
  | [], [] => Some 0
  | n :: s, k :: r => if Nat.ltb k n then option_map (fun p => k * prod s + p) (pos s r) else None
  | _, _ => None
  end.
Definition np_repeat (v : list A) (m : nat) : list A := flat_map (fun a => repeat a m) v.
Record arr := Arr { a_shape : list nat; a_data : list A }.
Definition reshape (data : list A) (s : list nat) : @res arr := if Nat.eqb (List.length data) (prod s) then Ok (Arr s data) else Raise ValueError.
Definition get (a : arr) (idx : list nat) : option A := match pos (a_shape a) idx with Some p => nth_error (a_data a) p | None => None end.
(** numpy.transpose: axis j of the result is axis order[j] *)
Record view := View { v_shape : list nat; v_get : list nat -> option A }.
Fixpoint index_of (a : nat) (l : list nat) : nat := match l with [] => 0 | b :: r => if Nat.eqb b a then 0 else S (index_of a r) end.
Definition transpose (a : arr) (order : list nat) : view :=
  View (map (fun ax => nth ax (a_shape a) 0) order)
       (fun idx => if Nat.eqb (List.length idx) (List.length order) then get a (map (fun ax => nth (index_of ax order) idx 0) (seq 0 (List.length order))) else None).
(** list.insert *)
Definition insert_at {B} (i : nat) (x : B) (l : list B) : list B := firstn i l ++ x :: skipn i l.
(** one vector 216-224 *)
Definition gridOne (shape : list nat) (i : nat) (v : list A) : @res view :=
  let newshape := nth i shape 0 :: drop_at i shape in
  match reshape (np_repeat v (prod shape / nth i shape 0)) newshape with
  | Ok a => Ok (transpose a (insert_at i 0 (tl (seq 0 (List.length newshape)))))
  | Raise e => Raise e
  | OutOfFuel => OutOfFuel
  end.
Fixpoint gridAll (shape : list nat) (i : nat) (vecs : list (list A)) : @res (list view) :=
  match vecs with
  | [] => Ok []
  | v :: r => match gridOne shape i v, gridAll shape (S i) r with Ok a, Ok l => Ok (a :: l) | Raise e, _ => Raise e | _, e => e end
  end.
Definition nd_grid (vecs : list (list A)) : @res (list view) := gridAll (map (@List.length A) vecs) 0 vecs.
End Grid.
