(** * CtModel: astropysics/utils/gen.py 53-101 (check_type).
    Values are abstract: what isinstance, the dtype of an array and len of a tuple answer about them.
    Simplified: the texts of the errors are left out, and str() of a value is taken to succeed. *)
From Coq Require Import List Arith Bool.
From Verif Require Import PyBase.
Import ListNotations.

Section Ct.
Context {V C D : Type}.
(** isinstance of a class (or nested tuple of classes); the dtype, if an array; the length, if a tuple; dtype equality *)
Record world := World { isinst : V -> C -> bool; arr_dtype : V -> option D; tuple_len : V -> option nat; dtype_eqb : D -> D -> bool }.
(** an entry of a sequence of types; [TOther]: neither a dtype nor a class, isinstance raises TypeError *)
Inductive tspec := TDtype (d : D) | TClass (c : C) | TOther.
(** the argument types: None, a sequence, one class, one dtype, another callable, anything else *)
Inductive types := NoTypes | Seq (l : list tspec) | OneClass (c : C) | OneDtype (d : D) | Callable (f : V -> @res bool) | BadTypes.

(** 'Value %s not a numpy array'%val (86): val a tuple is the tuple of the arguments of the format *)
Definition fmt_ok (w : world) (v : V) : bool := match tuple_len w v with Some n => Nat.eqb n 1 | None => true end.
(** the loop 83-95 *)
Fixpoint ct_loop (w : world) (l : list tspec) (v : V) : @res unit :=
  match l with
  | [] => Raise TypeError
  | TDtype d :: r =>
      match arr_dtype w v with
      | None => if fmt_ok w v then ct_loop w r v else Raise TypeError
      | Some e => if negb (dtype_eqb w e d) then ct_loop w r v else Ok tt
      end
  | TClass c :: r => if negb (isinst w v c) then ct_loop w r v else Ok tt
  | TOther :: _ => Raise TypeError
  end.
(** check_type 73-101; the value None is [None] *)
Definition check_type (w : world) (t : types) (val : option V) (acceptnone : bool) : @res unit :=
  match val with
  | None => if acceptnone then Ok tt else Raise TypeError
  | Some v =>
      match t with
      | NoTypes => Ok tt
      | Seq l => ct_loop w l v
      | OneClass c => ct_loop w [TClass c] v
      | OneDtype d => ct_loop w [TDtype d] v
      | Callable f => match f v with Ok b => if negb b then Raise TypeError else Ok tt | Raise e => Raise e | OutOfFuel => OutOfFuel end
      | BadTypes => Raise ValueError
      end
  end.
End Ct.
Arguments world : clear implicits.
Arguments tspec : clear implicits.
Arguments types : clear implicits.
