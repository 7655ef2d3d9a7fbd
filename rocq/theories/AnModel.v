(** * AnModel: arrays into catalogs (astropysics/objcat.py 2917-3114 arrayToNodes, 3116-3180 arrayToCatalog), over FnModel.
    The array is the list of its rows (the 2-d array transposed; a 1-d array is one column).  The nodes are a list of FieldNodes; a matcher is a
    function of the row and the node that does not look at what this call writes.  errors and converters are per column.
    Left out: structured arrays (names of columns), the traversal when nodes is a CatalogNode (see CatalogModel). *)
From Coq Require Import List ZArith Bool Ascii String.
From Verif Require Import PyBase PubModel FieldModel FnModel.
Import ListNotations.

Section Arrays.
Context {V : Type}.
Notation world := (@world V).
Notation rhs := (@rhs V).

(** a converter: None, of one argument, of two, of any number (f with star args), of another number, or not callable *)
Inductive conv := CNone | COne (f : rhs -> @res rhs) | CTwo (f : rhs -> list V -> @res rhs) | CVar (f : rhs -> option (list V) -> @res rhs) | CWrong | CNot.
(** 3062-3076: nothing is appended for a converter of any number of arguments *)
Fixpoint twoargs (l : list conv) : @res (list (option bool)) :=
  match l with
  | [] => Ok []
  | CNone :: r => bindr (twoargs r) (fun t => Ok (None :: t))
  | COne _ :: r => bindr (twoargs r) (fun t => Ok (Some false :: t))
  | CTwo _ :: r => bindr (twoargs r) (fun t => Ok (Some true :: t))
  | CVar _ :: r => twoargs r
  | _ => Raise ValueError
  end.
Definition call (c : conv) (two : bool) (v : rhs) (row : list V) : @res rhs :=
  match c, two with
  | COne f, false => f v
  | CTwo f, true => f v row
  | CVar f, true => f v (Some row)
  | CVar f, false => f v None
  | _, _ => Raise TypeError
  end.

(** fi[source] = r; fi.currentobj = source 3107-3113 *)
Definition putCell (w : world) (n : nat) (name : str) (s : nat) (setcurr : bool) (r : rhs) : world * @res unit :=
  match n_attr (nodes w n) name with
  | None => (w, Raise AttributeError)
  | Some i =>
      let x := fobjs w i in
      match FieldModel.setitem (f_type x) (fun _ => 0) (fun _ => 0) (f_vals x) (KSource s) r with
      | (f, Ok _) => if setcurr then let (f', r') := setCurr (f_type x) f (CKey (KSource s)) in (with_field w i (set_vals x f'), r')
                     else (with_field w i (set_vals x f), Ok tt)
      | (f, e) => (with_field w i (set_vals x f), e)
      end
  end.
(** 3097-3099 *)
Fixpoint addMissing (w : world) (n : nat) (l : list str) : world * @res unit :=
  match l with
  | [] => (w, Ok tt)
  | k :: r => if has (n_names (nodes w n)) k then addMissing w n r
              else match addField w n (FName k) with (w', Ok _) => addMissing w' n r | bad => bad end
  end.
(** 3101-3113; [errs c k] are the errors (upper, lower) of column c in row k *)
Definition cellInput (errs : nat -> nat -> option (V * V)) (c k : nat) (x : V) : rhs := match errs c k with Some (u, l) => RErr x [u; l] | None => RRaw x end.
Fixpoint cells (w : world) (n s : nat) (setcurr : bool) (errs : nat -> nat -> option (V * V)) (convs : list conv) (two : list (option bool)) (row : list V) (k c : nat) (l : list (V * str)) : world * @res unit :=
  match l with
  | [] => (w, Ok tt)
  | (x, name) :: r =>
      match nth_error two c, nth_error convs c with
      | Some b, Some cv =>
          match call cv (match b with Some true => true | _ => false end) (cellInput errs c k x) row with
          | Ok v => match putCell w n name s setcurr v with (w', Ok _) => cells w' n s setcurr errs convs two row k (S c) r | bad => bad end
          | Raise e => (w, Raise e)
          | OutOfFuel => (w, OutOfFuel)
          end
      | _, _ => (w, Raise IndexError)
      end
  end.
Definition doRow (w : world) (n s : nat) (setcurr : bool) errs convs two (cols : list str) (k : nat) (row : list V) : world * @res unit :=
  match addMissing w n cols with (w', Ok _) => cells w' n s setcurr errs convs two row k 0 (combine row cols) | bad => bad end.
(** the node of a row 3083-3095: without a match the loop variable keeps its last value *)
Fixpoint find_first (m : nat -> bool) (l : list nat) : option nat := match l with [] => None | a :: r => if m a then Some 0 else option_map S (find_first m r) end.
Definition matcher := list V -> nat -> bool.
Definition pick (m : option matcher) (a : list V) (ns : list nat) (last : option nat) : list nat * @res nat :=
  match m with
  | None => match ns with n :: r => (r, Ok n) | [] => ([], Raise IndexError) end
  | Some f => match find_first (f a) ns with
              | Some j => match nth_error ns j with Some n => (remove_at j ns, Ok n) | None => (ns, Raise IndexError) end
              | None => match rev ns, last with
                        | n :: _, _ => (ns, Ok n)
                        | [], Some n => (ns, Ok n)
                        | [], None => (ns, Raise NameError)
                        end
              end
  end.
Fixpoint loop (w : world) (ns : list nat) (last : option nat) (s : nat) (setcurr : bool) errs convs two (m : option matcher) (cols : list str) (k : nat) (rows : list (list V)) : world * @res unit :=
  match rows with
  | [] => (w, Ok tt)
  | a :: r => match pick m a ns last with
              | (ns', Ok n) => match doRow w n s setcurr errs convs two cols k a with
                               | (w', Ok _) => loop w' ns' (Some n) s setcurr errs convs two m cols (S k) r
                               | bad => bad
                               end
              | (_, Raise e) => (w, Raise e)
              | (_, OutOfFuel) => (w, OutOfFuel)
              end
  end.
(** fields: a dictionary from column numbers to names (a sequence is enumerated) *)
Fixpoint getf (l : list (nat * str)) (c : nat) : option str := match l with [] => None | (j, k) :: r => if Nat.eqb j c then Some k else getf r c end.
Fixpoint all_some {A} (l : list (option A)) : option (list A) := match l with [] => Some [] | Some x :: r => option_map (cons x) (all_some r) | None :: _ => None end.
(** arrayToNodes.  For 2-d arrays a column without name is only possible when a name is left over (3039-3055) *)
Definition arrayToNodes (w : world) (rows : list (list V)) (s : nat) (fields : list (nat * str)) (ns : list nat) (errs : nat -> nat -> option (V * V)) (m : option matcher) (convs : list conv) (setcurr : bool) : world * @res unit :=
  match rows with
  | [] => (w, Raise IndexError)
  | a :: _ =>
      if negb (Nat.eqb (List.length a) (List.length fields)) then (w, Raise ValueError)
      else match all_some (map (getf fields) (seq 0 (List.length a))) with
           | None => (w, Raise ValueError)
           | Some cols =>
               match twoargs convs with
               | Raise e => (w, Raise e)
               | OutOfFuel => (w, OutOfFuel)
               | Ok two => if match m with None => negb (Nat.eqb (List.length rows) (List.length ns)) | Some _ => false end then (w, Raise ValueError)
                           else loop w ns None s setcurr errs convs two m cols 0 rows
               end
           end
  end.

(** ** arrayToCatalog 3141-3180.  New nodes are numbered from [fresh]; what Fields a new node has is in the world.
    [name]: the name field and nameconv *)
Definition putName (w : world) (n : nat) (name : str) (s : nat) (x : V) : world * @res unit :=
  match (if has (n_names (nodes w n)) name then (w, Ok tt) else addField w n (FName name)) with
  | (w1, Ok _) =>
      match n_attr (nodes w1 n) name with
      | None => (w1, Raise AttributeError)
      | Some i =>
          let f := f_vals (fobjs w1 i) in
          let f1 := if Nat.eqb (List.length (vals f)) 1 && match contains f KNone with Ok b => b | _ => false end then fst (delitem f KNone) else f in
          let (f2, r) := FieldModel.setitem (f_type (fobjs w1 i)) (fun _ => 0) (fun _ => 0) f1 (KSource s) (RRaw x) in
          (with_field w1 i (set_vals (fobjs w1 i) f2), r)
      end
  | bad => bad
  end.
Fixpoint makeNodes (w : world) (next : nat) (s : nat) (name : option (str * (nat -> V))) (flt : list V -> bool) (i : nat) (rows : list (list V)) : world * @res (list nat) :=
  match rows with
  | [] => (w, Ok [])
  | a :: r =>
      if flt a then
        match (match name with None => (w, Ok tt) | Some (k, f) => putName w next k s (f i) end) with
        | (w', Ok _) => match makeNodes w' (S next) s name flt (S i) r with (w'', Ok l) => (w'', Ok (next :: l)) | bad => bad end
        | (w', Raise e) => (w', Raise e)
        | (w', OutOfFuel) => (w', OutOfFuel)
        end
      else makeNodes w next s name flt (S i) r
  end.
Definition arrayToCatalog (w : world) (fresh : nat) (rows : list (list V)) (s : nat) (fields : list (nat * str)) errs (convs : list conv) (flt : option (list V -> bool)) (name : option (str * (nat -> V))) (setcurr : bool) : world * @res (list nat) :=
  match makeNodes w fresh s name (match flt with Some f => f | None => fun _ => true end) 0 rows with
  | (w', Ok ns) => match arrayToNodes w' rows s fields ns errs (option_map (fun f a _ => f a) flt) convs setcurr with
                   | (w'', Ok _) => (w'', Ok ns)
                   | (w'', Raise e) => (w'', Raise e)
                   | (w'', OutOfFuel) => (w'', OutOfFuel)
                   end
  | bad => bad
  end.
End Arrays.
