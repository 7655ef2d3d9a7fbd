(** * DerivedModel: DerivedValues, their caches and the notifications that invalidate them
    (astropysics/objcat.py 1261-1300, 1329-1381, 1434-1455, 1990-2236, 2237-2440)

    Simplifications: values carry no errors (the error propagation of 2170-2190 is in DerivedErr);
    functions raise TypeError when an argument is Python's None; every DerivedValue is kept alive by the
    user, so weak references do not die; the fields of a node are fixed ([locate] is a function); fields
    accept every type (C13 is about types); the exception of a cycle is always CycleError (2196-2211 may
    replace it by AttributeError or TypeError while composing the message). *)
From Coq Require Import List ZArith Lia Bool Arith.
From Verif Require Import PyBase FieldModel.
Import ListNotations.

Definition upd {B} (m : nat -> B) (k : nat) (x : B) : nat -> B := fun n => if Nat.eqb n k then x else m n.
Definition mem (d : nat) (l : list nat) : bool := existsb (Nat.eqb d) l.

(** a dependency: a Field object, or a locator string (2290-2302) *)
Inductive dep := DField (f : nat) | DName (nm : nat).
(** failedvalueaction 2010-2020: 'raise', 'skip' (and 'warn', which only adds a warning), 'ignore' *)
Inductive mode := MRaise | MSkip | MIgnore.

Section Derived.
Context {A : Type}.
(** the functions, the links, what a locator string means at a node, and a bound on the identities *)
Variable fn : nat -> list A -> @res A.
Variable deps : nat -> list dep.
Variable locate : nat -> nat -> @res nat.
Variable N : nat.
Variable int_src : Z -> nat.

Definition anyty : @ftype A := {| t_ok := fun _ => true; t_float := false; t_tofloat := fun _ => None |}.

Record st := St {
  flds : nat -> list (@fval A);       (* Field._vals *)
  own : list nat;                      (* DerivedValues with a field *)
  dfield : nat -> option nat;          (* DerivedValue.field *)
  pnode : nat -> option nat;           (* DependentSource.pathnode *)
  refs : nat -> list (option nat);     (* DependentSource.depfieldrefs *)
  nots : nat -> list nat;              (* Field._notifywrs *)
  valid : nat -> bool;
  cache : nat -> option A              (* DerivedValue._value *)
}.
Definition with_valid (s : st) (v : nat -> bool) (c : nat -> option A) := St (flds s) (own s) (dfield s) (pnode s) (refs s) (nots s) v c.
Definition with_refs (s : st) (r : nat -> list (option nat)) (n : nat -> list nat) := St (flds s) (own s) (dfield s) (pnode s) r n (valid s) (cache s).

(** ** invalidate 2129-2156, notifyValueChange 1261-1282; [stack] is DerivedValue.__invcyclestack *)
Fixpoint invalidate (fuel : nat) (stack : list nat) (d : nat) (s : st) : st :=
  match fuel with
  | O => s
  | S n => if mem d stack then s
           else let s1 := with_valid s (upd (valid s) d false) (cache s) in
                match dfield s1 d with
                | None => s1
                | Some f => fold_left (fun t e => invalidate n (d :: stack) e t) (nots s1 f) s1
                end
  end.
Definition notify (f : nat) (s : st) : st := fold_left (fun t e => invalidate (S N) [] e t) (nots s f) s.

(** ** populateFieldRefs 2381-2410 (with pathnode [n]) *)
Fixpoint populate_from (n d : nat) (ds : list dep) (rs : list (option nat)) (nt : nat -> list nat) : list (option nat) * (nat -> list nat) * @res (list nat) :=
  match ds, rs with
  | _ :: ds, Some f :: rs => let '(rs', nt', r) := populate_from n d ds rs nt in (Some f :: rs', nt', match r with Ok l => Ok (f :: l) | r => r end)
  | DName nm :: ds, None :: rs =>
      match locate n nm with
      | Ok f => let '(rs', nt', r) := populate_from n d ds rs (upd nt f (nt f ++ [d])) in (Some f :: rs', nt', match r with Ok l => Ok (f :: l) | r => r end)
      | Raise e => (None :: rs, nt, Raise e)
      | OutOfFuel => (None :: rs, nt, OutOfFuel)
      end
  | DField _ :: _, None :: rs => (None :: rs, nt, Raise TypeError)   (* '-' in None *)
  | _, _ => (rs, nt, Ok [])
  end.
Fixpoint all_some (l : list (option nat)) : option (list nat) :=
  match l with [] => Some [] | Some x :: r => match all_some r with Some y => Some (x :: y) | None => None end | None :: _ => None end.
Definition populate (d : nat) (s : st) : st * @res (list nat) :=
  match all_some (refs s d) with
  | Some l => (s, Ok l)
  | None => match pnode s d with
            | None => (s, Raise ValueError)
            | Some n => let '(rs, nt, r) := populate_from n d (deps d) (refs s d) (nots s) in (with_refs s (upd (refs s) d rs) nt, r)
            end
  end.

(** the exceptions handled at 2192 *)
Definition caught (e : exn) : bool := match e with ValueError | IndexError | CycleError | AttributeError | TypeError => true | _ => false end.

(** ** DerivedValue.value 2158-2232 and DependentSource.getDeps 2412-2440.
    [evd] evaluates a DerivedValue.  hasattr(fi,'errors') at 2430 evaluates every DerivedValue of the field and
    swallows the exceptions one by one, currenterror evaluates the current one once more, then fi(). *)
Section Eval.
  Variable evd : nat -> st -> st * @res (option A).
  Fixpoint touch (l : list (@fval A)) (s : st) : st * @res unit :=
    match l with
    | [] => (s, Ok tt)
    | v :: r => match v_der v with
                | None => touch r s
                | Some e => match evd e s with (s1, OutOfFuel) => (s1, OutOfFuel) | (s1, _) => touch r s1 end
                end
    end.
  Definition evField (f : nat) (s : st) : st * @res (option A) :=
    match touch (flds s f) s with
    | (s1, Ok _) =>
        match flds s1 f with
        | [] => (s1, Raise IndexError)
        | v :: _ => match v_der v with
                    | None => (s1, Ok (Some (v_val v)))
                    | Some e => match evd e s1 with (s2, OutOfFuel) => (s2, OutOfFuel) | (s2, _) => evd e s2 end
                    end
        end
    | (s1, Raise e) => (s1, Raise e)
    | (s1, OutOfFuel) => (s1, OutOfFuel)
    end.
  Fixpoint evFields (fs : list nat) (s : st) : st * @res (list (option A)) :=
    match fs with
    | [] => (s, Ok [])
    | f :: r => match evField f s with
                | (s1, Ok x) => match evFields r s1 with (s2, Ok xs) => (s2, Ok (x :: xs)) | r => r end
                | (s1, Raise e) => (s1, Raise e)
                | (s1, OutOfFuel) => (s1, OutOfFuel)
                end
    end.
End Eval.
Fixpoint all_vals (l : list (option A)) : option (list A) :=
  match l with [] => Some [] | Some x :: r => match all_vals r with Some y => Some (x :: y) | None => None end | None :: _ => None end.
Definition apply_fn (d : nat) (l : list (option A)) : @res A := match all_vals l with Some xs => fn d xs | None => Raise TypeError end.
Definition fail (m : mode) (d : nat) (e : exn) (s : st) : st * @res (option A) :=
  if caught e then
    match m with
    | MRaise => (s, Raise e)
    | MSkip => (with_valid s (upd (valid s) d false) (upd (cache s) d None), Ok None)
    | MIgnore => (with_valid s (upd (valid s) d true) (upd (cache s) d None), Ok None)
    end
  else (s, Raise e).
Fixpoint eval (m : mode) (fuel : nat) (stack : list nat) (d : nat) (s : st) : st * @res (option A) :=
  match fuel with
  | O => (s, OutOfFuel)
  | S n =>
      if valid s d then (s, Ok (cache s d))
      else if mem d stack then fail m d CycleError s
      else match populate d s with
           | (s1, Ok fs) =>
               match evFields (eval m n (d :: stack)) fs s1 with
               | (s2, Ok xs) => match apply_fn d xs with
                                | Ok v => (with_valid s2 (upd (valid s2) d true) (upd (cache s2) d (Some v)), Ok (Some v))
                                | Raise e => fail m d e s2
                                | OutOfFuel => (s2, OutOfFuel)
                                end
               | (s2, Raise e) => fail m d e s2
               | (s2, OutOfFuel) => (s2, OutOfFuel)
               end
           | (s1, Raise e) => fail m d e s1
           | (s1, OutOfFuel) => (s1, OutOfFuel)
           end
  end.
(** reading a DerivedValue, and Field.__call__ 1164-1165 *)
Definition read (m : mode) (d : nat) (s : st) : st * @res (option A) := eval m (S N) [] d s.
Definition call (m : mode) (f : nat) (s : st) : st * @res (option A) :=
  match flds s f with
  | [] => (s, Raise IndexError)
  | v :: _ => match v_der v with None => (s, Ok (Some (v_val v))) | Some e => read m e s end
  end.

(** ** operations on the fields *)
(** the DerivedValue whose type is checked (checkType 2118-2125 reads its value with 'skip'): 1230-1246 *)
Definition inp_der (i : @inp A) : option (@fval A) := match i with IVal v => match v_der v with Some _ => Some v | None => None end | _ => None end.
Definition checked (f : @field A) (o : @fop A) : option nat :=
  match o with
  | FSet ds k (RVal v) =>
      match contains f k with
      | Ok true => match getitem f k with Ok i => match nth_error (vals f) i with Some old => if Nat.eqb (v_src v) (v_src old) then v_der v else None | None => None end | _ => None end
      | Ok false => match k with KInt _ => None | _ => match find_src (v_src v) (vals f) with None => v_der v | Some _ => None end end
      | _ => None
      end
  | FInsert k (IVal v) => match k with KSource s => if Nat.eqb (v_src v) s then v_der v else None | _ => match find_src (v_src v) (vals f) with None => v_der v | Some _ => None end end
  | FAppend (IVal v) => match find_src (v_src v) (vals f) with None => v_der v | Some _ => None end
  | _ => None
  end.
(** [i == 0] with i the int key, or the position found for another key (1335, 1356, 1376); 1452 *)
Definition at_zero (f : @field A) (k : @key A) : bool :=
  match k with KInt z => (z =? 0)%Z | _ => match getitem f k with Ok i => Nat.eqb i 0 | _ => false end end.
Definition notifies (f : @field A) (o : @fop A) : bool :=
  match o with
  | FSet ds k r => match contains f k with Ok true => at_zero f k | _ => false end
  | FDel k | FInsert k _ => at_zero f k
  | FAppend _ => Nat.eqb (length (vals f)) 0
  | FPop z => (z =? 0)%Z
  | FCurr _ => true
  | FReverse _ => false
  end.
Definition doop (f : @field A) (o : @fop A) : @field A * @res unit :=
  match o with
  | FSet ds k r => setitem anyty int_src ds f k r
  | FDel k => delitem f k
  | FInsert k i => insert anyty f k i
  | FAppend i => append anyty f i
  | FPop z => match pop f z with (f', Ok _) => (f', Ok tt) | (f', Raise e) => (f', Raise e) | (f', OutOfFuel) => (f', OutOfFuel) end
  | FCurr a => setCurr anyty f a
  | FReverse _ => (f, Raise NotImplementedError)   (* not modelled *)
  end.
Definition fview (s : st) (f : nat) : @field A := {| vals := flds s f; owned := own s |}.
Definition store (s : st) (f : nat) (x : @field A) : st :=
  St (upd (flds s) f (vals x)) (owned x) (fun d => if mem d (own s) then dfield s d else if mem d (owned x) then Some f else dfield s d) (pnode s) (refs s) (nots s) (valid s) (cache s).
Definition step (s : st) (f : nat) (o : @fop A) : st * @res unit :=
  let '(s1, r) := match checked (fview s f) o with
                  | None => (s, Ok tt)
                  | Some d => match read MSkip d s with (s1, Ok _) => (s1, Ok tt) | (s1, Raise e) => (s1, Raise e) | (s1, OutOfFuel) => (s1, OutOfFuel) end
                  end in
  match r with
  | Ok _ => let (x, r) := doop (fview s1 f) o in
            match r with
            | Ok _ => (if notifies (fview s1 f) o then notify f (store s1 f x) else store s1 f x, Ok tt)
            | Raise e => (store s1 f x, Raise e)
            | OutOfFuel => (store s1 f x, OutOfFuel)
            end
  | Raise e => (s1, Raise e)
  | OutOfFuel => (s1, OutOfFuel)
  end.
(** the notification is sent before the value is stored, but after the new DerivedValue got its field (1257); it looks only at the latter *)
(** DependentSource._setPathnode 2312-2326, reached by Field.node = n (1402-1410) *)
Fixpoint reset_refs (ds : list dep) (rs : list (option nat)) : list (option nat) :=
  match ds, rs with DField _ :: ds, _ :: rs => None :: reset_refs ds rs | DName _ :: ds, r :: rs => r :: reset_refs ds rs | _, _ => rs end.
Definition set_pathnode (s : st) (d : nat) (n : option nat) : st :=
  St (flds s) (own s) (dfield s) (upd (pnode s) d n) (upd (refs s) d (reset_refs (deps d) (refs s d))) (nots s) (valid s) (cache s).

(** histories *)
Inductive dop := DOp (f : nat) (o : @fop A) | DRead (d : nat) | DCall (f : nat).
Definition dstep (s : st) (o : dop) : st :=
  match o with DOp f o => fst (step s f o) | DRead d => fst (read MRaise d s) | DCall f => fst (call MRaise f s) end.
Definition drun (s : st) (l : list dop) : st := fold_left dstep l s.
(** after the constructors 2029-2066, 2280-2303: nothing computed, links to Field objects registered *)
Definition init_refs (d : nat) : list (option nat) := map (fun p => match p with DField f => Some f | DName _ => None end) (deps d).
Definition init_nots (f : nat) : list nat := flat_map (fun d => map (fun _ => d) (filter (fun p => match p with DField g => Nat.eqb f g | DName _ => false end) (deps d))) (seq 0 N).
Definition init (pn : nat -> option nat) : st := St (fun _ => []) [] (fun _ => None) pn init_refs init_nots (fun _ => false) (fun _ => None).
End Derived.
