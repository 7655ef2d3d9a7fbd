(** * DerivedSpec: what a DerivedValue should be worth: everything recomputed from the observed values now in the fields, with no cache and no notification *)
From Coq Require Import List ZArith.
From Verif Require Import PyBase FieldModel DerivedModel.
Import ListNotations.
Section Spec.
Context {A : Type}.
Variable fn : nat -> list A -> @res A.
Variable deps : nat -> list dep.
Variable locate : nat -> nat -> @res nat.
(** the field a link designates; [pn] gives the node of each DerivedValue *)
Definition target (pn : nat -> option nat) (d : nat) (p : dep) : option nat :=
  match p with DField f => Some f | DName nm => match pn d with None => None | Some n => match locate n nm with Ok f => Some f | _ => None end end end.
(** the value of [d], looking through at most [h] levels of DerivedValues; [fl] gives the values of each field, current one first *)
Fixpoint recompute (fl : nat -> list (@fval A)) (pn : nat -> option nat) (h : nat) (d : nat) : option A :=
  match h with
  | O => None
  | S h =>
      match all_some (map (target pn d) (deps d)) with
      | None => None
      | Some fs =>
          match all_vals (map (fun f => match fl f with [] => None | v :: _ => match v_der v with None => Some (v_val v) | Some e => recompute fl pn h e end end) fs) with
          | None => None
          | Some xs => match fn d xs with Ok v => Some v | _ => None end
          end
      end
  end.
(** the current value of a field *)
Definition curr (fl : nat -> list (@fval A)) pn h f : option A := match fl f with [] => None | v :: _ => match v_der v with None => Some (v_val v) | Some e => recompute fl pn h e end end.
End Spec.
