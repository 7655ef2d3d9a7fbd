(** * FnModel: nodes with Fields (astropysics/objcat.py 498-727: FieldNode).
    A world has numbered nodes and Field objects; the values of a Field are those of FieldModel.  A node has the list of the
    names of its Fields and its attributes that hold Fields.  Names of Fields are texts that are not attributes of the class
    FieldNode; nodes are not deleted (Field.node is a weak reference).  Left out: StructuredFieldNode, pickling, comparison,
    notifications, warnings, the tree (see CatalogModel), extractField. *)
From Coq Require Import List ZArith Bool Ascii String.
From Verif Require Import PyBase PubModel FieldModel.
Import ListNotations.

Section Node.
Context {V : Type}.
Variable int_src : Z -> nat.

Record fobj := Fobj { f_name : str; f_type : @ftype V; f_node : option nat; f_vals : @field V }.
Record node := Node { n_names : list str; n_attr : str -> option nat }.
Record world := World { nodes : nat -> node; fobjs : nat -> fobj; nextf : nat }.
Definition any_type : @ftype V := {| t_ok := fun _ => true; t_float := false; t_tofloat := fun _ => None |}.
Definition newField (name : str) (ty : @ftype V) : fobj := Fobj name ty None empty_field.
Definition newWorld : world := World (fun _ => Node [] (fun _ => None)) (fun _ => newField [] any_type) 0.

Definition upd {A} (f : nat -> A) (i : nat) (x : A) (j : nat) : A := if Nat.eqb j i then x else f j.
Definition upds {A} (f : str -> A) (k : str) (x : A) (j : str) : A := if str_eqb j k then x else f j.
Definition with_node (w : world) (n : nat) (x : node) : world := World (upd (nodes w) n x) (fobjs w) (nextf w).
Definition with_field (w : world) (i : nat) (x : fobj) : world := World (nodes w) (upd (fobjs w) i x) (nextf w).
Definition set_vals (x : fobj) (v : @field V) : fobj := Fobj (f_name x) (f_type x) (f_node x) v.
(** Field(name,type) *)
Definition makeField (w : world) (name : str) (ty : @ftype V) : world := World (nodes w) (upd (fobjs w) (nextf w) (newField name ty)) (S (nextf w)).

Definition has (l : list str) (k : str) : bool := existsb (str_eqb k) l.
(** addField 554-567: the attribute is set before the test that the Field belongs to no node *)
Inductive farg := FName (s : str) | FObj (i : nat) | FBad.
Definition addObj (w : world) (n i : nat) : world * @res unit :=
  let x := fobjs w i in
  if has (n_names (nodes w n)) (f_name x) then (w, Raise ValueError)
  else let a := upds (n_attr (nodes w n)) (f_name x) (Some i) in
       match f_node x with
       | Some _ => (with_node w n (Node (n_names (nodes w n)) a), Raise ValueError)
       | None => (with_field (with_node w n (Node (n_names (nodes w n) ++ [f_name x]) a)) i (Fobj (f_name x) (f_type x) (Some n) (f_vals x)), Ok tt)
       end.
Definition addField (w : world) (n : nat) (a : farg) : world * @res unit :=
  match a with
  | FBad => (w, Raise ValueError)
  | FObj i => addObj w n i
  | FName s => addObj (makeField w s any_type) n (nextf w)
  end.
(** delField 569-577; list.remove.  The Field still refers to the node *)
Fixpoint remove1 (k : str) (l : list str) : list str := match l with [] => [] | a :: r => if str_eqb a k then r else a :: remove1 k r end.
Definition delField (w : world) (n : nat) (k : str) : world * @res unit :=
  if has (n_names (nodes w n)) k then (with_node w n (Node (remove1 k (n_names (nodes w n))) (upds (n_attr (nodes w n)) k None)), Ok tt)
  else (w, Raise KeyError).

(** ** __getitem__ 615-641, __setitem__ 643-650 *)
Inductive nkey := NInt (z : Z) | NStr (s : str).
(** endswith and [:-4] *)
Definition suffix (s : str) : str := skipn (List.length s - 4) s.
Definition body (s : str) : str := firstn (List.length s - 4) s.
(** what a key asks for: the value, the source or the errors of a Field *)
Inductive wanted := WValue (k : str) | WSource (k : str) | WError (k : str).
Definition parse_key (names : list str) (k : nkey) : @res wanted :=
  match k with
  | NStr s =>
      if has names s then Ok (WValue s)
      else if str_eqb (suffix s) (L "_src") && Nat.leb 4 (List.length s) then Ok (WSource (body s))
      else if str_eqb (suffix s) (L "_err") && Nat.leb 4 (List.length s) then Ok (WError (body s))
      else Raise IndexError
  | NInt z => match py_get names z with Some s => Ok (WValue s) | None => Raise IndexError end
  end.
Inductive answer := Value (x : V) | Src (s : nat) | Errs (l : list V) | Nothing.
Definition getitem (w : world) (n : nat) (k : nkey) : @res answer :=
  bindr (parse_key (n_names (nodes w n)) k) (fun q =>
    let '(name, show) := match q with WValue s => (s, fun v => Value (v_val v)) | WSource s => (s, fun v => Src (v_src v)) | WError s => (s, fun v => Errs (v_errs v)) end in
    match n_attr (nodes w n) name with
    | None => Raise AttributeError
    | Some i => match getCurr (f_vals (fobjs w i)) with Ok v => Ok (show v) | Raise IndexError => Ok Nothing | Raise e => Raise e | OutOfFuel => OutOfFuel end
    end).
Definition setitem (w : world) (n : nat) (k : nkey) (a : @carg V) : world * @res unit :=
  match (match k with NStr s => if has (n_names (nodes w n)) s then Some s else None | NInt z => py_get (n_names (nodes w n)) z end) with
  | None => (w, Raise IndexError)
  | Some s => match n_attr (nodes w n) s with
              | None => (w, Raise AttributeError)
              | Some i => let (f, r) := setCurr (f_type (fobjs w i)) (f_vals (fobjs w i)) a in (with_field w i (set_vals (fobjs w i) f), r)
              end
  end.

(** fields 579-585 and values 659-667: the value of each Field, '' (None here) where there is none *)
Definition values (w : world) (n : nat) : list (option V) :=
  map (fun s => match n_attr (nodes w n) s with
                | None => None   (* not reached, see C129_fields *)
                | Some i => match getCurr (f_vals (fobjs w i)) with Ok v => Some (v_val v) | _ => None end
                end) (n_names (nodes w n)).

(** ** setToSource 689-727; missing is 'skip' (or 'warn'), 'raise', or not valid *)
Inductive missing := Skip | RaiseIt | Invalid.
Fixpoint toSource (w : world) (n : nat) (src : @key V) (m : missing) (l : list str) : world * @res unit :=
  match l with
  | [] => (w, Ok tt)
  | s :: r =>
      match n_attr (nodes w n) s with
      | None => (w, Raise AttributeError)
      | Some i =>
          match contains (f_vals (fobjs w i)) src with
          | Ok true => match setCurr (f_type (fobjs w i)) (f_vals (fobjs w i)) (CKey src) with
                       | (f, Ok _) => toSource (with_field w i (set_vals (fobjs w i) f)) n src m r
                       | (f, e) => (with_field w i (set_vals (fobjs w i) f), e)
                       end
          | Ok false => match m with RaiseIt => (w, Raise ValueError) | _ => toSource w n src m r end
          | Raise e => (w, Raise e)
          | OutOfFuel => (w, OutOfFuel)
          end
      end
  end.
Definition setToSource (w : world) (n : nat) (src : @key V) (m : missing) : world * @res unit :=
  match m with Invalid => (w, Raise ValueError) | _ => toSource w n src m (n_names (nodes w n)) end.

(** direct changes of a Field *)
Definition changeField (w : world) (i : nat) (o : @fop V) : world := with_field w i (set_vals (fobjs w i) (fstep (f_type (fobjs w i)) int_src (f_vals (fobjs w i)) o)).
End Node.
