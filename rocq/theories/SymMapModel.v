(** * SymMapModel: SymmetricMapping and _LinkedDict (astropysics/utils/gen.py 107-225)

    Python objects used as keys and values are [option nat], [None] being the
    Python object None (the code tests [oldval is not None]).  The flags
    [setting]/[deling] only guard the re-entrant call made by the linked
    dictionary, which is then a no-op; the calls below are written out with
    that nesting.  Iteration order of dictionaries is not modelled: operations
    that depend on it take the order as an argument.  Python's [key] in
    [_LinkedDict.pop] (205, 212) is an undefined global name. *)
From Coq Require Import List ZArith Lia Bool.
From stdpp Require Import gmap.
From Verif Require Import PyBase.
Import ListNotations.

Notation obj := (option nat).
Definition pyNone : obj := None.
Notation dict := (gmap obj obj).

(** The two linked dictionaries (122-124). *)
Record smap := { fwd : dict; bwd : dict }.
Definition empty_map : smap := {| fwd := ∅; bwd := ∅ |}.

(** which of the two dictionaries a call is made on *)
Inductive dir := Fwd | Bwd.
Definition this (d : dir) (s : smap) : dict := match d with Fwd => fwd s | Bwd => bwd s end.
Definition link (d : dir) (s : smap) : dict := match d with Fwd => bwd s | Bwd => fwd s end.
Definition mk (d : dir) (self lnk : dict) : smap :=
  match d with Fwd => {| fwd := self; bwd := lnk |} | Bwd => {| fwd := lnk; bwd := self |} end.

(** [oldval = self[key] if key in self else None] (170) *)
Definition oldval (m : dict) (k : obj) : obj := default pyNone (m !! k).

(** The nested call [self.link[val] = key] (178) while [self.setting]: 168-186
    for the linked dictionary.  The call it makes back on [self] does nothing. *)
Definition set_nested (lnk : dict) (key val : obj) : res dict :=
  match oldval lnk key with
  | Some _ => Raise KeyError
  | None => Ok (<[key := val]> lnk)
  end.

(** _LinkedDict.__setitem__ (168-186), outermost call *)
Definition setitem (d : dir) (key val : obj) (s : smap) : smap * res unit :=
  let self := this d s in
  let old := oldval self key in
  let self1 := <[key := val]> self in
  match set_nested (link d s) val key with
  | Ok lnk' => (mk d self1 lnk', Ok tt)
  | Raise e =>
      match old with
      | None => (mk d (delete key self1) (link d s), Raise e)
      | Some _ => (mk d (<[key := old]> self1) (link d s), Raise e)
      end
  | OutOfFuel => (s, OutOfFuel)
  end.

(** [del self.link[val]] (194) while [self.deling]: 187-196 for the linked
    dictionary. *)
Definition del_nested (lnk : dict) (key : obj) : res dict :=
  match lnk !! key with
  | None => Raise KeyError
  | Some _ => Ok (delete key lnk)
  end.

(** _LinkedDict.__delitem__ (187-196), outermost call *)
Definition delitem (d : dir) (key : obj) (s : smap) : smap * res unit :=
  match this d s !! key with
  | None => (s, Raise KeyError)
  | Some val =>
      let self1 := delete key (this d s) in
      match del_nested (link d s) val with
      | Ok lnk' => (mk d self1 lnk', Ok tt)
      | Raise e => (mk d self1 (link d s), Raise e)
      | OutOfFuel => (s, OutOfFuel)
      end
  end.

(** _LinkedDict.update (197-199); SymmetricMapping.__init__ (118-126) with a
    dictionary; MutableMapping.update.  [kvs] is the items in iteration order. *)
Fixpoint update (d : dir) (kvs : list (obj * obj)) (s : smap) : smap * res unit :=
  match kvs with
  | [] => (s, Ok tt)
  | (k, v) :: r => match setitem d k v s with
                   | (s', Ok _) => update d r s'
                   | (s', Raise e) => (s', Raise e)
                   | (s', OutOfFuel) => (s', OutOfFuel)
                   end
  end.

(** _LinkedDict.pop(key[,default]) (201-224): NameError in both branches *)
Definition linked_pop (d : dir) (key : obj) (s : smap) : smap * res obj := (s, Raise NameError).

(** SymmetricMapping inherits pop, setdefault, clear from MutableMapping, which
    use __getitem__/__setitem__/__delitem__ (136-141). *)
Definition pop (key : obj) (dflt : option obj) (s : smap) : smap * res obj :=
  match fwd s !! key with
  | None => (s, match dflt with Some x => Ok x | None => Raise KeyError end)
  | Some v => match delitem Fwd key s with
              | (s', Ok _) => (s', Ok v)
              | (s', Raise e) => (s', Raise e)
              | (s', OutOfFuel) => (s', OutOfFuel)
              end
  end.

Definition setdefault (key dflt : obj) (s : smap) : smap * res obj :=
  match fwd s !! key with
  | Some v => (s, Ok v)
  | None => match setitem Fwd key dflt s with
            | (s', Ok _) => (s', Ok dflt)
            | (s', Raise e) => (s', Raise e)
            | (s', OutOfFuel) => (s', OutOfFuel)
            end
  end.

(** MutableMapping.clear: popitem (next(iter(self)), del) until empty; [order]
    lists the keys met. *)
Fixpoint clear (order : list obj) (s : smap) : smap * res unit :=
  match order with
  | [] => (s, Ok tt)
  | k :: r => match delitem Fwd k s with
              | (s', Ok _) => clear r s'
              | (s', Raise e) => (s', Raise e)
              | (s', OutOfFuel) => (s', OutOfFuel)
              end
  end.

(** dict.clear on one of the two dictionaries (C implementation, not
    overridden by _LinkedDict): the other one is not touched. *)
Definition linked_clear (d : dir) (s : smap) : smap := mk d ∅ (link d s).

Inductive op :=
| OSet (d : dir) (k v : obj)
| ODel (d : dir) (k : obj)
| OUpdate (d : dir) (kvs : list (obj * obj))
| OLinkedPop (d : dir) (k : obj)
| OPop (k : obj) (dflt : option obj)
| OSetDefault (k dflt : obj)
| OClear (order : list obj)
| OLinkedClear (d : dir).

Definition step (s : smap) (o : op) : smap :=
  match o with
  | OSet d k v => fst (setitem d k v s)
  | ODel d k => fst (delitem d k s)
  | OUpdate d kvs => fst (update d kvs s)
  | OLinkedPop d k => fst (linked_pop d k s)
  | OPop k x => fst (pop k x s)
  | OSetDefault k x => fst (setdefault k x s)
  | OClear order => fst (clear order s)
  | OLinkedClear d => linked_clear d s
  end.
Fixpoint run (s : smap) (ops : list op) : smap :=
  match ops with [] => s | o :: r => run (step s o) r end.
