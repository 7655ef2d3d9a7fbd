(** * SedModel: spectral energy distributions (astropysics/objcat.py 3183-3340: SEDField) over FieldModel.  The values are Spectrum and PhotObservation
    objects; a PhotObservation has names of bands with fluxes and magnitudes.  Whether a band overlaps a spectrum and what it gives are arguments.
    Left out: getFullSED, plotSED, default values, pickling, derived values, notifications. *)
From Coq Require Import List ZArith Bool Arith.
From Verif Require Import PyBase PubModel FieldModel.
Import ListNotations.

Section Sed.
Context {A : Type}.   (* numbers *)
(** a spectrum (numbered), or photometry: (band, flux, magnitude) *)
Inductive sobj := Spec (i : nat) | Phot (l : list (nat * A * A)).
Definition is_spec (o : sobj) : bool := match o with Spec _ => true | Phot _ => false end.
(** type 3200: Spectrum or PhotObservation only: every [sobj] *)
Definition sed_type : @ftype sobj := {| t_ok := fun _ => true; t_float := false; t_tofloat := fun _ => None |}.
Variable int_src : Z -> nat.

(** units are numbered *)
Record sed := Sed { s_vals : @field sobj; s_masked : list Z; s_unit : nat }.
Definition newSed (u : nat) : sed := Sed empty_field [] u.
Definition inmask (m : list Z) (z : Z) : bool := existsb (Z.eqb z) m.
(** what mask and unmask are given: an int; a value of this field (its position); anything else: Sequence.index compares the FieldValues
    with it, and they are equal to themselves only *)
Inductive marg := MInt (z : Z) | MVal (i : nat) | MOther.
(** mask 3292-3300, unmask 3301-3309, unmaskAll 3310-3314 *)
Definition mpos (s : sed) (a : marg) : @res Z :=
  match a with MInt z => Ok z | MVal i => if Nat.ltb i (List.length (vals (s_vals s))) then Ok (Z.of_nat i) else Raise ValueError | MOther => Raise ValueError end.
Definition mask (s : sed) (a : marg) : sed * @res unit :=
  match mpos s a with
  | Ok z => (Sed (s_vals s) (if inmask (s_masked s) z then s_masked s else z :: s_masked s) (s_unit s), Ok tt)
  | Raise e => (s, Raise e)
  | OutOfFuel => (s, OutOfFuel)
  end.
Definition unmask (s : sed) (a : marg) : sed * @res unit :=
  match mpos s a with
  | Ok z => if inmask (s_masked s) z then (Sed (s_vals s) (filter (fun y => negb (Z.eqb y z)) (s_masked s)) (s_unit s), Ok tt) else (s, Raise KeyError)
  | Raise e => (s, Raise e)
  | OutOfFuel => (s, OutOfFuel)
  end.
Definition unmaskAll (s : sed) : sed := Sed (s_vals s) [] (s_unit s).
(** specs, phots and their sources 3244-3262 *)
Fixpoint pick_from (m : list Z) (want : bool) (i : nat) (l : list (@fval sobj)) : list (@fval sobj) :=
  match l with
  | [] => []
  | v :: r => if Bool.eqb (is_spec (v_val v)) want && negb (inmask m (Z.of_nat i)) then v :: pick_from m want (S i) r else pick_from m want (S i) r
  end.
Definition specs (s : sed) : list sobj := map v_val (pick_from (s_masked s) true 0 (vals (s_vals s))).
Definition phots (s : sed) : list sobj := map v_val (pick_from (s_masked s) false 0 (vals (s_vals s))).
Definition specsources (s : sed) : list nat := map v_src (pick_from (s_masked s) true 0 (vals (s_vals s))).
Definition photsources (s : sed) : list nat := map v_src (pick_from (s_masked s) false 0 (vals (s_vals s))).
(** _setUnit 3266-3283: the objects of the loop are FieldValues, which have no attribute unit; None: not a unit *)
Definition setUnit (s : sed) (u : option nat) : sed * @res unit := match u with Some u => (Sed (s_vals s) (s_masked s) u, Ok tt) | None => (s, Raise ValueError) end.

(** ** getBand 3316-3356 *)
Fixpoint in_phot (asflux : bool) (b : nat) (l : list (nat * A * A)) : option A :=
  match l with [] => None | (b', f, m) :: r => if Nat.eqb b' b then Some (if asflux then f else m) else in_phot asflux b r end.
Fixpoint from_phots (asflux : bool) (b : nat) (l : list sobj) : option A :=
  match l with [] => None | Phot p :: r => match in_phot asflux b p with Some v => Some v | None => from_phots asflux b r end | Spec _ :: r => from_phots asflux b r end.
Fixpoint from_specs (overlap : nat -> nat -> bool) (compute : bool -> nat -> nat -> A) (asflux : bool) (b : nat) (l : list sobj) : option A :=
  match l with [] => None | Spec i :: r => if overlap b i then Some (compute asflux b i) else from_specs overlap compute asflux b r | Phot _ :: r => from_specs overlap compute asflux b r end.
(** one band; the message of the ValueError has no place for the name, so that it is a TypeError *)
Definition bandValue (overlap : nat -> nat -> bool) (compute : bool -> nat -> nat -> A) (s : sed) (asflux : bool) (b : nat) : @res A :=
  match from_phots asflux b (phots s) with
  | Some v => Ok v
  | None => match from_specs overlap compute asflux b (specs s) with Some v => Ok v | None => Raise TypeError end
  end.
Fixpoint bandValues overlap compute (s : sed) (asflux : bool) (bs : list nat) : @res (list A) :=
  match bs with [] => Ok [] | b :: r => bindr (bandValue overlap compute s asflux b) (fun v => bindr (bandValues overlap compute s asflux r) (fun l => Ok (v :: l))) end.
Inductive banswer := BScalar (v : A) | BList (l : list A) | BDict (l : list (nat * A)).
Definition getBand overlap compute (s : sed) (bs : list nat) (asflux asdict : bool) : @res banswer :=
  bindr (bandValues overlap compute s asflux bs) (fun l =>
    Ok (if asdict then BDict (combine bs l) else match l with [v] => BScalar v | _ => BList l end)).
(** changes of the values *)
Definition changeSed (s : sed) (o : @fop sobj) : sed := Sed (fstep sed_type int_src (s_vals s) o) (s_masked s) (s_unit s).
End Sed.
