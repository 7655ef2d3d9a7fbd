(** * RegModel: DataObjectRegistry, utils/gen.py 227-406 (phot.bands, spec registries).  Keys are strings; a dictionary is its list of entries
    (the order of a Python 2 dictionary is not specified, so nothing should depend on it); data objects have an identity, may have a name, may
    or may not be instances of the registry's datatype, and are not mappings themselves. *)
From Coq Require Import List Bool Arith Ascii String.
From Verif Require Import PyBase PubModel AngStrModel.
Import ListNotations.

Record dobj := DObj { oid : nat; okind : bool; oname : option str }.
Record registry := Reg { items : list (str * dobj); groups : list (str * list str); typed : bool; dataname : str }.
Fixpoint assoc {A} (k : str) (d : list (str * A)) : option A := match d with [] => None | (k', v) :: r => if str_eqb k k' then Some v else assoc k r end.
Fixpoint put {A} (k : str) (v : A) (d : list (str * A)) : list (str * A) :=
  match d with [] => [(k, v)] | (k', v') :: r => if str_eqb k k' then (k', v) :: r else (k', v') :: put k v r end.
Definition has {A} (k : str) (d : list (str * A)) : bool := match assoc k d with Some _ => true | None => false end.
(** __init__ 232-236 *)
Definition new (name : str) (ty : bool) : registry := Reg [] [] ty name.

(** __getitem__ 238-244: a group comes first, and gives a dictionary; looking up a group in a group is recursive.  OutOfFuel is endless
    recursion (RuntimeError) *)
Inductive value := VObj (o : dobj) | VDict (d : list (str * value)).
Fixpoint mapM {A B} (f : A -> @res B) (l : list A) : @res (list B) :=
  match l with [] => Ok [] | a :: r => match f a with Ok b => match mapM f r with Ok k => Ok (b :: k) | Raise e => Raise e | OutOfFuel => OutOfFuel end | Raise e => Raise e | OutOfFuel => OutOfFuel end end.
Fixpoint getitem (fuel : nat) (g : registry) (k : str) : @res value :=
  match fuel with
  | O => OutOfFuel
  | S f => match assoc k (groups g) with
           | Some ds => match mapM (fun d => match getitem f g d with Ok v => Ok (d, v) | Raise e => Raise e | OutOfFuel => OutOfFuel end) ds with Ok l => Ok (VDict l) | Raise e => Raise e | OutOfFuel => OutOfFuel end
           | None => match assoc k (items g) with Some o => Ok (VObj o) | None => Raise KeyError end
           end
  end.
(** __delitem__ 245-249: dict.__delitem__ is called without the registry *)
Definition delitem (g : registry) (k : str) : registry * option exn := (g, Some TypeError).
Definition setitem (g : registry) (k : str) (o : dobj) : registry := Reg (put k o (items g)) (groups g) (typed g) (dataname g).

(** register 257-285: an object that is not of the datatype stops it; a false group name is none *)
Inductive groupname := GNone | GStr (s : str) | GSeq (l : list str) | GOther.
Fixpoint add_all (g : registry) (objs : list (str * dobj)) : registry * option exn :=
  match objs with
  | [] => (g, None)
  | (k, o) :: r => if typed g && negb (okind o) then (g, Some ValueError) else add_all (setitem g k o) r
  end.
Definition set_group (g : registry) (s : str) (ks : list str) : registry := Reg (items g) (put s ks (groups g)) (typed g) (dataname g).
Definition register (g : registry) (objs : list (str * dobj)) (gn : groupname) : registry * option exn :=
  match add_all g objs with
  | (g, Some e) => (g, Some e)
  | (g, None) =>
      match gn with
      | GNone | GStr [] => (g, None)
      | GStr s => (set_group g s (map fst objs), None)
      | GSeq l => (fold_left (fun g s => set_group g s (map fst objs)) l g, None)
      | GOther => (g, Some ValueError)
      end
  end.
(** addToGroup 291-304; removeGroup 306-313 is declared without self *)
Definition addToGroup (fuel : nat) (g : registry) (key group : str) : registry * option exn :=
  match getitem fuel g key with
  | Ok _ => let ks := match assoc group (groups g) with Some ks => ks | None => [] end in
            (set_group g group (if existsb (str_eqb key) ks then ks else ks ++ [key]), None)
  | Raise e => (g, Some e)
  | OutOfFuel => (g, Some (UserExn 0))
  end.
Definition removeGroup (g : registry) (group : str) : registry * option exn := (g, Some TypeError).

(** getObjects 318-378 *)
Definition lower1 (a : ascii) : ascii := let n := nat_of_ascii a in if ((65 <=? n) && (n <=? 90))%nat then ascii_of_nat (n + 32) else a.
Inductive request := RStr (s : str) | RSeq (l : list (str + dobj)) | ROne (o : dobj).
Definition comma : ascii := ","%char.
(** the generated name: the first of dataname1, dataname2, ... that is present already (the test is the wrong way round) *)
Fixpoint gen_name (fuel j : nat) (g : registry) : option str :=
  match fuel with O => None | S f => let n := dataname g ++ decimal j in if has n (items g) then Some n else gen_name f (S j) g end.
Fixpoint check_objs (fuel : nat) (addmissing : bool) (g : registry) (l : list (str + dobj)) : registry * @res unit :=
  match l with
  | [] => (g, Ok tt)
  | inl _ :: r => check_objs fuel addmissing g r
  | inr o :: r =>
      if negb (okind o) then (g, Raise ValueError)
      else if addmissing && negb (existsb (fun p => Nat.eqb (oid (snd p)) (oid o)) (items g)) then
        match oname o with
        | Some n => if has n (items g) then (g, Raise KeyError) else check_objs fuel addmissing (setitem g n o) r
        | None => match gen_name fuel 1 g with Some n => check_objs fuel addmissing (setitem g n o) r | None => (g, OutOfFuel) end
        end
      else check_objs fuel addmissing g r
  end.
Definition getObjects (fuel : nat) (g : registry) (req : request) (addmissing : bool) : registry * @res (list value) :=
  let req := match req with ROne o => if typed g && okind o then RSeq [inr o] else req | _ => req end in
  match req with
  | RStr s =>
      (g, if str_eqb (map lower1 s) (L "all") then Ok (map (fun p => VObj (snd p)) (items g))
          else if existsb (Ascii.eqb comma) s then mapM (fun n => getitem fuel g (strip n)) (split_on comma s)
          else if has s (items g) then match getitem fuel g s with Ok (VDict d) => Ok (map snd d) | Ok v => Ok [v] | Raise e => Raise e | OutOfFuel => OutOfFuel end
          else match assoc s (groups g) with
               | Some ks => mapM (getitem fuel g) ks
               | None => mapM (fun a => getitem fuel g [a]) (strip s)
               end)
  | RSeq l =>
      match mapM (fun x => match x with inl n => getitem fuel g n | inr o => Ok (VObj o) end) l with
      | Ok objs => if typed g then match check_objs fuel addmissing g l with (g', Ok _) => (g', Ok objs) | (g', Raise e) => (g', Raise e) | (g', OutOfFuel) => (g', OutOfFuel) end else (g, Ok objs)
      | Raise e => (g, Raise e)
      | OutOfFuel => (g, OutOfFuel)
      end
  | ROne _ => (g, Raise KeyError)
  end.
(** getObjectNames 380-403 *)
Definition getObjectNames (g : registry) : list (str * str) := map (fun p => (fst p, match oname (snd p) with Some n => n | None => fst p end)) (items g).
