(** * SnModel: StructuredFieldNode (astropysics/objcat.py 2674-2887) over FnModel.  A class is the list of its Fields in the order of
    inspect.getmembers (sorted by name), each with a type and possibly a default value.  [kind n] is the class of node n.
    Left out: derived values of the class, pickling and checkonload, units and descriptions, subclasses of Field. *)
From Coq Require Import List ZArith Bool Ascii String.
From Verif Require Import PyBase PubModel FieldModel FnModel.
Import ListNotations.

Section Structured.
Context {V : Type}.
Variable int_src : Z -> nat.
Notation world := (@world V).

Record cfield := CField { c_name : str; c_type : @ftype V; c_default : option V }.
Variable kind : nat -> list cfield.
Record state := State { sw : world; made : nat -> bool; altered : nat -> bool }.
Definition newState : state := State newWorld (fun _ => false) (fun _ => false).
(** Field.__init__ 1112-1130: a default is the value of the source None *)
Definition vals0 (c : cfield) : @field V := match c_default c with None => empty_field | Some d => fst (FieldModel.setitem (c_type c) int_src (fun _ => 0) empty_field KNone (RRaw d)) end.
(** a new Field that belongs to node n, as its attribute 2728-2737, 2845-2851 *)
Definition install (w : world) (n : nat) (c : cfield) : world :=
  World (upd (nodes w) n (Node (n_names (nodes w n)) (upds (n_attr (nodes w n)) (c_name c) (Some (nextf w)))))
        (upd (fobjs w) (nextf w) (Fobj (c_name c) (c_type c) (Some n) (vals0 c))) (S (nextf w)).
Definition installs (w : world) (n : nat) (l : list cfield) : world := fold_left (fun w c => install w n c) l w.
(** __init__ 2709-2752 without keyword arguments (they are item assignments) *)
Definition construct (st : state) (n : nat) : state :=
  let w := installs (sw st) n (kind n) in
  State (with_node w n (Node (n_names (nodes w n) ++ map c_name (kind n)) (n_attr (nodes w n)))) (upd (made st) n true) (upd (altered st) n false).
(** revert 2818-2873.  The test "hasattr(self,k) is hasattr(self.__class__,k)" 2844 is always true: both are True *)
Definition revert (st : state) (n : nat) : state :=
  let w := installs (sw st) n (kind n) in
  let fields := map c_name (kind n) in
  State (with_node w n (Node fields (fun k => if has fields k then n_attr (nodes w n) k else None))) (made st) (upd (altered st) n false).
(** addField and delField 2875-2883: the flag is set first *)
Definition sAddField (st : state) (n : nat) (a : farg) : state * @res unit :=
  let (w, r) := addField (sw st) n a in (State w (made st) (upd (altered st) n true), r).
Definition sDelField (st : state) (n : nat) (k : str) : state * @res unit :=
  let (w, r) := delField (sw st) n k in (State w (made st) (upd (altered st) n true), r).
(** everything else is inherited from FieldNode *)
Definition inherited (st : state) (p : world * @res unit) : state * @res unit := (State (fst p) (made st) (altered st), snd p).
End Structured.
