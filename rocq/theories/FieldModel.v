(** * FieldModel: Field values (astropysics/objcat.py 1098-1484)

    [Field.__getitem__] (1301-1327), [__contains__] (1168-1174), [__setitem__]
    (1329-1350), [__delitem__] (1352-1360), [insert]/[_nocheckinsert]
    (1362-1381), [_checkConvInVal] (1200-1258), [currentobj] (1434-1455), and
    the MutableSequence mixins append and pop; [check_type] through
    [FieldValue.checkType] (1882-1889), [ObservedErroredValue.checkType]
    (1956-1969).

    Sources are singletons per name (1487-1502), so a source is a number here
    and equality of sources is identity; number 0 is the source 'None'.
    Not modelled: notifications (see DerivedModel), values that are not
    FieldValues but happen to have attributes source and value, assignment to
    the source attribute of a stored value, pickling. *)
From Coq Require Import List ZArith Lia Bool.
From Verif Require Import PyBase.
Import ListNotations.

Section Field.
Context {V : Type}.

Record fval := { v_src : nat; v_val : V; v_errs : list V; v_der : option nat }.
(** [v_errs]: the errors present on an ObservedErroredValue; [v_der]: identity
    of a DerivedValue ([None] for observed values). *)

(** The field's type: [t_ok] is check_type on one value; [t_float]: the type is
    float, [t_tofloat] is Python's float() ([None]: it raises). *)
Record ftype := { t_ok : V -> bool; t_float : bool; t_tofloat : V -> option V }.
Variable ty : ftype.
(** the source named by a decimal numeral: [Source(3)] *)
Variable int_src : Z -> nat.

Definition none_src : nat := 0.

(** Keys: an int; None; a string naming a source (with the two one-character
    halves when it has exactly two characters); a string 'derived' or
    'derived<k>'; one with 'derived' whose rest is no integer; a Source; any
    other object. *)
Inductive key := KInt (z : Z) | KNone | KName (s : nat) (halves : option (nat * V)) | KDerived (k : Z) | KDerivedBad
               | KSource (s : nat) | KOther.
(** Inputs: a FieldValue, a pair (source, value), a pair (source, (value, errors...)),
    a pair whose tuple has a wrong length, or something else. *)
Inductive inp := IVal (v : fval) | IPair (s : nat) (x : V) | IPairErr (s : nat) (x : V) (errs : list V) | IPairBad | IBad.

(** [owned]: the DerivedValues whose [field] attribute is set *)
Record field := { vals : list fval; owned : list nat }.
Definition with_vals (l : list fval) (f : field) := {| vals := l; owned := owned f |}.

(** position of the first value with that source *)
Fixpoint find_src (s : nat) (l : list fval) : option nat :=
  match l with
  | [] => None
  | v :: r => if Nat.eqb (v_src v) s then Some 0 else option_map S (find_src s r)
  end.
(** positions of the DerivedValues *)
Fixpoint der_pos (i : nat) (l : list fval) : list nat :=
  match l with
  | [] => []
  | v :: r => match v_der v with Some _ => i :: der_pos (S i) r | None => der_pos (S i) r end
  end.

(** __getitem__ (1301-1327), returning the position of the value returned *)
Definition get_src (f : field) (s : nat) : res nat :=
  match find_src s (vals f) with Some i => Ok i | None => Raise KeyError end.
Definition getitem (f : field) (k : key) : res nat :=
  match k with
  | KInt z => match py_index (length (vals f)) z with Some i => Ok i | None => Raise IndexError end
  | KNone => get_src f none_src
  | KName s _ | KSource s => get_src f s
  | KDerived d => let ders := der_pos 0 (vals f) in
                  if (Z.of_nat (length ders) <=? d)%Z then Raise IndexError
                  else match py_get ders d with Some i => Ok i | None => Raise IndexError end
  | KDerivedBad => Raise ValueError
  | KOther => Raise TypeError
  end.
(** __contains__ (1168-1174) *)
Definition contains (f : field) (k : key) : res bool :=
  match getitem f k with
  | Ok _ => Ok true
  | Raise KeyError | Raise IndexError => Ok false
  | Raise e => Raise e
  | OutOfFuel => OutOfFuel
  end.

(** 1217-1227 *)
Definition convert (i : inp) : res fval :=
  match i with
  | IVal v => Ok v
  | IPair s x => Ok {| v_src := s; v_val := x; v_errs := []; v_der := None |}
  | IPairErr s x es => Ok {| v_src := s; v_val := x; v_errs := es; v_der := None |}
  | IPairBad | IBad => Raise TypeError
  end.
(** checkType, and the conversion to float (1245-1253) *)
Definition check_conv_type (v : fval) : res fval :=
  if (t_ok ty (v_val v) && forallb (t_ok ty) (v_errs v))%bool then Ok v
  else if t_float ty then
         match t_tofloat ty (v_val v) with
         | Some x => Ok {| v_src := v_src v; v_val := x; v_errs := v_errs v; v_der := v_der v |}
         | None => Raise TypeError
         end
       else Raise TypeError.

(** [dosrccheck]: True, a Source, or False *)
Inductive srccheck := SCTrue | SCSource (s : nat) | SCFalse.
Definition checkConvInVal (f : field) (i : inp) (sc : srccheck) : field * res fval :=
  match convert i with
  | Raise e => (f, Raise e)
  | OutOfFuel => (f, OutOfFuel)
  | Ok v =>
      let checked :=
        match sc with
        | SCFalse => Ok v
        | SCSource s => if Nat.eqb (v_src v) s then check_conv_type v else Raise ValueError
        | SCTrue => match find_src (v_src v) (vals f) with
                    | Some _ => Raise ValueError
                    | None => check_conv_type v
                    end
        end in
      match checked with
      | Raise e => (f, Raise e)
      | OutOfFuel => (f, OutOfFuel)
      | Ok v' =>
          match v_der v' with
          | None => (f, Ok v')
          | Some d => if existsb (Nat.eqb d) (owned f) then (f, Raise ValueError)
                      else ({| vals := vals f; owned := d :: owned f |}, Ok v')
          end
      end
  end.

(** Right-hand side of an item assignment: a FieldValue, or a raw object [x],
    which becomes the pair (key, x): [RRaw x], [RErr x es] when it is a tuple *)
Inductive rhs := RVal (v : fval) | RRaw (x : V) | RErr (x : V) (errs : list V) | RErrBad.
Definition pair_with (s : nat) (r : rhs) : inp :=
  match r with RVal v => IVal v | RRaw x => IPair s x | RErr x es => IPairErr s x es | RErrBad => IPairBad end.
(** what the raw object alone converts to: a sequence of two elements is taken
    as a pair; [None] otherwise *)
Definition key_src (k : key) : nat :=
  match k with
  | KInt z => int_src z
  | KNone => none_src
  | KName s _ | KSource s => s
  | KDerived _ | KDerivedBad | KOther => none_src       (* see [setitem] *)
  end.

(** __setitem__ (1329-1350).  [derived_src]: the source named by the string
    'derived...' used as a key *)
Definition setitem (derived_src : key -> nat) (f : field) (k : key) (r : rhs) : field * res unit :=
  let src := match k with KDerived _ | KDerivedBad => derived_src k | _ => key_src k end in
  let isint := match k with KInt _ => true | _ => false end in
  match contains f k with
  | Raise e => (f, Raise e)                       (* includes KOther: TypeError, KDerivedBad: ValueError *)
  | OutOfFuel => (f, OutOfFuel)
  | Ok true =>
      match getitem f k with
      | Ok i =>
          match nth_error (vals f) i with
          | Some old =>
              match checkConvInVal f (pair_with src r) (SCSource (v_src old)) with
              | (f', Ok v) => (with_vals (set_nth i v (vals f')) f', Ok tt)
              | (f', Raise e) => (f', Raise e)
              | (f', OutOfFuel) => (f', OutOfFuel)
              end
          | None => (f, Raise IndexError)
          end
      | Raise e => (f, Raise e)
      | OutOfFuel => (f, OutOfFuel)
      end
  | Ok false =>
      if isint then (f, Raise IndexError)         (* self._vals[i].source, 1334 *)
      else match checkConvInVal f (pair_with src r) SCTrue with
           | (f', Ok v) => (with_vals (vals f' ++ [v]) f', Ok tt)
           | (f', Raise e) => (f', Raise e)
           | (f', OutOfFuel) => (f', OutOfFuel)
           end
  end.

(** __delitem__ (1352-1360) *)
Definition delitem (f : field) (k : key) : field * res unit :=
  match getitem f k with
  | Ok i => (with_vals (remove_at i (vals f)) f, Ok tt)
  | Raise e => (f, Raise e)
  | OutOfFuel => (f, OutOfFuel)
  end.

(** insert (1362-1372), _nocheckinsert (1374-1381) *)
Definition insert (f : field) (k : key) (i : inp) : field * res unit :=
  let sc := match k with KSource s => SCSource s | _ => SCTrue end in
  match checkConvInVal f i sc with
  | (f', Raise e) => (f', Raise e)
  | (f', OutOfFuel) => (f', OutOfFuel)
  | (f', Ok v) =>
      match k with
      | KInt z => (with_vals (py_insert z v (vals f')) f', Ok tt)
      | _ => match getitem f' k with
             | Ok p => (with_vals (insert_at p v (vals f')) f', Ok tt)
             | Raise e => (f', Raise e)
             | OutOfFuel => (f', OutOfFuel)
             end
      end
  end.
(** MutableSequence.append: insert(len(self), v) *)
Definition append (f : field) (i : inp) : field * res unit := insert f (KInt (Z.of_nat (length (vals f)))) i.
(** MutableSequence.pop: v = self[index]; del self[index]; return v *)
Definition pop (f : field) (z : Z) : field * res fval :=
  match getitem f (KInt z) with
  | Ok i => match nth_error (vals f) i with
            | Some v => (with_vals (remove_at i (vals f)) f, Ok v)
            | None => (f, Raise IndexError)
            end
  | Raise e => (f, Raise e)
  | OutOfFuel => (f, OutOfFuel)
  end.
(** MutableSequence.reverse: swaps pairs by item assignment, first [self[i]]
    (evaluated with both right-hand sides already read) *)
Definition reverse (derived_src : key -> nat) (f : field) : field * res unit :=
  let n := length (vals f) in
  (fix go (i steps : nat) (f : field) : field * res unit :=
     match steps with
     | O => (f, Ok tt)
     | S st =>
         match nth_error (vals f) (n - i - 1), nth_error (vals f) i with
         | Some a, Some b =>
             match setitem derived_src f (KInt (Z.of_nat i)) (RVal a) with
             | (f1, Ok _) =>
                 match setitem derived_src f1 (KInt (Z.of_nat (n - i - 1))) (RVal b) with
                 | (f2, Ok _) => go (S i) st f2
                 | r => r
                 end
             | r => r
             end
         | _, _ => (f, Raise IndexError)
         end
     end) 0 (Nat.div n 2) f.

(** currentobj (1434-1455).  The assigned object is used as a key first; if
    that fails with KeyError, IndexError or TypeError it is converted. *)
Inductive carg := CKey (k : key) | CInp (i : inp).
Definition arg_key (a : carg) : key := match a with CKey k => k | CInp _ => KOther end.
(** the same object as an input value: a two-character string is a sequence of
    two elements *)
Definition arg_inp (a : carg) : inp :=
  match a with
  | CKey (KName _ (Some (s, x))) => IPair s x
  | CKey _ => IBad
  | CInp i => i
  end.
Definition getCurr (f : field) : res fval :=
  match vals f with [] => Raise IndexError | v :: _ => Ok v end.
Definition setCurr (f : field) (a : carg) : field * res unit :=
  match getitem f (arg_key a) with
  | Ok i =>
      match nth_error (vals f) i with
      | Some v => (with_vals (v :: remove_at i (vals f)) f, Ok tt)
      | None => (f, Raise IndexError)
      end
  | Raise KeyError | Raise IndexError | Raise TypeError =>
      match checkConvInVal f (arg_inp a) SCFalse with
      | (f', Ok v) =>
          let l := match find_src (v_src v) (vals f') with Some i => remove_at i (vals f') | None => vals f' end in
          (with_vals (v :: l) f', Ok tt)
      | (f', Raise e) => (f', Raise e)
      | (f', OutOfFuel) => (f', OutOfFuel)
      end
  | Raise e => (f, Raise e)
  | OutOfFuel => (f, OutOfFuel)
  end.

(** ** Histories *)
Inductive fop :=
| FSet (ds : key -> nat) (k : key) (r : rhs) | FDel (k : key) | FInsert (k : key) (i : inp)
| FAppend (i : inp) | FPop (z : Z) | FCurr (a : carg) | FReverse (ds : key -> nat).
Definition fstep (f : field) (o : fop) : field :=
  match o with
  | FSet ds k r => fst (setitem ds f k r)
  | FDel k => fst (delitem f k)
  | FInsert k i => fst (insert f k i)
  | FAppend i => fst (append f i)
  | FPop z => fst (pop f z)
  | FCurr a => fst (setCurr f a)
  | FReverse ds => fst (reverse ds f)
  end.
Definition frun (f : field) (ops : list fop) : field := fold_left fstep ops f.
Definition empty_field : field := {| vals := []; owned := [] |}.
End Field.
