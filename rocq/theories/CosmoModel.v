(** * CosmoModel: the current cosmology and its module variables (astropysics/constants.py 172-258, 512-614) *)
From Coq Require Import List Bool Arith String Ascii.
From Verif Require Import PyBase.
Import ListNotations.
Open Scope string_scope. Open Scope nat_scope.

(** ** names *)
(** str.lower *)
Definition lower_ascii (a : ascii) : ascii := let n := nat_of_ascii a in if (65 <=? n) && (n <=? 90) then ascii_of_nat (n + 32) else a.
Fixpoint lower (s : string) : string := match s with EmptyString => EmptyString | String a r => String (lower_ascii a) (lower r) end.
(** str.replace(pat,''), left to right without overlaps: [skip] counts the characters of the current occurrence still to be dropped *)
Fixpoint remove_sub (pat s : string) (skip : nat) : string :=
  match s with
  | EmptyString => EmptyString
  | String a r => match skip with
                  | S k => remove_sub pat r k
                  | 0 => if prefix pat s then remove_sub pat r (String.length pat - 1) else String a (remove_sub pat r 0)
                  end
  end.
(** 524-526 *)
Definition regname (name : string) : string := remove_sub "cosmology"%string (lower name) 0.

Section Cosmo.
  Context {V : Type}.
  (** A Cosmology class: its __name__, the parameter names (the union of _params over the mro, 193-203), how attribute values follow from what was
      set on the instance (class attributes and properties), and which attributes can be assigned (not read-only properties). *)
  Record cls := Cls { cname : string; params : list string; view : (string -> option V) -> string -> option V; settable : string -> bool }.
  (** an instance: class, instance attributes, _autoupdate *)
  Record obj := Obj { ocls : nat; store : string -> option V; auto : bool }.
  (** heap of instances, index of the current one, module variables, registry *)
  Record st := St { heap : list obj; cur : nat; glob : string -> option V; reg : list (string * nat) }.
  Variable cdef : nat -> cls.

  Definition attr (o : obj) (n : string) : option V := view (cdef (ocls o)) (store o) n.
  Definition oparams (o : obj) : list string := params (cdef (ocls o)).
  Definition member (n : string) (l : list string) : bool := existsb (String.eqb n) l.
  (** _exportParams 243-245: all values are read before the module variables are updated *)
  Definition exportParams (o : obj) (g : string -> option V) : @res (string -> option V) :=
    if forallb (fun p => match attr o p with Some _ => true | None => false end) (oparams o)
    then Ok (fun n => if member n (oparams o) then attr o n else g n) else Raise AttributeError.
  (** _removeParams 247-253 *)
  Definition removeParams (o : obj) (g : string -> option V) : string -> option V := fun n => if member n (oparams o) then None else g n.
  Definition setobj (h : list obj) (i : nat) (o : obj) : list obj := set_nth i o h.
  (** __setattr__ 255-258 *)
  Definition upd (f : string -> option V) (n : string) (v : V) : string -> option V := fun m => if String.eqb m n then Some v else f m.
  Definition setattr (s : st) (i : nat) (n : string) (v : V) : st * @res unit :=
    match nth_error (heap s) i with
    | None => (s, Raise TypeError)
    | Some o =>
      if negb (settable (cdef (ocls o)) n) then (s, Raise AttributeError)
      else let o := Obj (ocls o) (upd (store o) n v) (auto o) in let s := St (setobj (heap s) i o) (cur s) (glob s) (reg s) in
           if auto o then match exportParams o (glob s) with Ok g => (St (heap s) (cur s) g (reg s), Ok tt) | Raise e => (s, Raise e) | OutOfFuel => (s, OutOfFuel) end
           else (s, Ok tt)
    end.
  (** [o._autoupdate = b]: the same __setattr__ with the _autoupdate attribute *)
  Definition setauto (s : st) (i : nat) (b : bool) : st * @res unit :=
    match nth_error (heap s) i with
    | None => (s, Raise TypeError)
    | Some o => let o := Obj (ocls o) (store o) b in let s := St (setobj (heap s) i o) (cur s) (glob s) (reg s) in
                if b then match exportParams o (glob s) with Ok g => (St (heap s) (cur s) g (reg s), Ok tt) | Raise e => (s, Raise e) | OutOfFuel => (s, OutOfFuel) end
                else (s, Ok tt)
    end.
  (** dictionary assignment and lookup *)
  Fixpoint assoc (l : list (string * nat)) (n : string) : option nat := match l with [] => None | (m, c) :: r => if String.eqb m n then Some c else assoc r n end.
  Definition dict_set (l : list (string * nat)) (n : string) (c : nat) : list (string * nat) := (n, c) :: filter (fun p => negb (String.eqb (fst p) n)) l.
  (** register_cosmology 518-534: [None] or '' means the class name *)
  Definition register (s : st) (c : nat) (name : option string) : st :=
    let nm := match name with Some (String a r) => String a r | _ => cname (cdef c) end in St (heap s) (cur s) (glob s) (dict_set (reg s) (regname nm) c).
  (** creating an instance: [init] is what its initializer leaves on it; _autoupdate is the class attribute False *)
  Definition new (s : st) (c : nat) (init : string -> option V) : st * nat := (St (heap s ++ [Obj c init false]) (cur s) (glob s) (reg s), List.length (heap s)).
  Inductive which := ByName (n : string) | ByObj (i : nat) | Neither.
  (** choose_cosmology 541-590.  575-590: [c] is the new cosmology, [None] if the local variable c is unbound *)
  Definition switch (s : st) (c : option nat) (autoupdate : bool) : st * @res nat :=
    match nth_error (heap s) (cur s) with
    | None => (s, Raise TypeError)
    | Some old =>
      let s := St (heap s) (cur s) (removeParams old (glob s)) (reg s) in
      let '(s, _) := setauto s (cur s) false in
      let exported := match c with None => Raise NameError | Some i => match nth_error (heap s) i with None => Raise TypeError | Some o => exportParams o (glob s) end end in
      let '(s, r) := match exported, c with
        | Ok g, Some i => (St (heap s) i g (reg s), Ok tt)
        | _, _ => match exportParams old (glob s) with Ok g => (St (heap s) (cur s) g (reg s), Ok tt) | Raise e => (s, Raise e) | OutOfFuel => (s, OutOfFuel) end
        end in
      match r, c with
      | Raise e, _ => (s, Raise e) | OutOfFuel, _ => (s, OutOfFuel)
      | Ok tt, None => (s, Raise NameError)   (* UnboundLocalError *)
      | Ok tt, Some i => let '(s, r) := setauto s i autoupdate in (s, match r with Ok _ => Ok i | Raise e => Raise e | OutOfFuel => OutOfFuel end)
      end
    end.
  (** 564-573.  [init]: the effect of the initializer with the given args *)
  Definition choose (s : st) (w : which) (autoupdate : bool) (init : string -> option V) : st * @res nat :=
    match w with
    | ByName n => match assoc (reg s) (lower n) with None => (s, Raise KeyError) | Some c => let '(s, i) := new s c init in switch s (Some i) autoupdate end
    | ByObj i => match nth_error (heap s) i with
                 | None => (s, Raise TypeError)
                 | Some o => switch (if existsb (fun p => Nat.eqb (snd p) (ocls o)) (reg s) then s else register s (ocls o) None) (Some i) autoupdate
                 end
    | Neither => switch s None autoupdate
    end.
  (** get_cosmology 592-601 *)
  Definition get_class (s : st) (name : string) : @res nat := match assoc (reg s) name with Some c => Ok c | None => Raise KeyError end.
  (** update_cosmology 603-608 *)
  Definition update (s : st) : st * @res unit :=
    match nth_error (heap s) (cur s) with
    | None => (s, Raise TypeError)
    | Some o => match exportParams o (glob s) with Ok g => (St (heap s) (cur s) g (reg s), Ok tt) | Raise e => (s, Raise e) | OutOfFuel => (s, OutOfFuel) end
    end.

  (** the module as imported, 512-539: one instance, exported; constants [base] *)
  Definition init (c0 : nat) (base : string -> option V) (r : list (string * nat)) : st :=
    let o := Obj c0 (fun _ => None) false in
    match exportParams o base with Ok g => St [o] 0 g r | _ => St [o] 0 base r end.
  Inductive op := New (c : nat) (i : string -> option V) | SetAttr (i : nat) (n : string) (v : V) | Choose (w : which) (a : bool) (i : string -> option V) | Update | Register (c : nat) (n : option string).
  Definition step (s : st) (o : op) : st :=
    match o with
    | New c i => fst (new s c i) | SetAttr i n v => fst (setattr s i n v) | Choose w a i => fst (choose s w a i) | Update => fst (update s) | Register c n => register s c n
    end.
  Definition run (s : st) (l : list op) : st := fold_left step l s.
End Cosmo.
Arguments cls : clear implicits. Arguments obj : clear implicits. Arguments st : clear implicits. Arguments op : clear implicits.
