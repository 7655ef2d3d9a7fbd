(** * RegistryModel: the transformation registry of CoordinateSystem and the convert methods
    (astropysics/coords/coordsys.py 757-1110, 1638-1735) *)
From Coq Require Import Reals ZArith List Bool Arith.
From Verif Require Import PyBase RealTrig AngleModel SphereModel.
Import ListNotations.

Open Scope nat_scope.
Definition cls := nat.      (* coordinate system classes *)
Definition fid := nat.      (* transformation functions given by the user *)
Definition tid := nat.      (* transformation type functions; 0 is LatLongCoordinates._smatrix *)
Definition name := nat.     (* transformation type names; 0 is 'smatrix' *)

(** A function in [_converters]: the user's function ([transtype] None), or the lambda
    [ttf(func(cobj),cobj,toclass)] with its [basetrans] and [transtype] (869-872). *)
Inductive conv := Plain (f : fid) | Typed (t : tid) (f : fid) (to : cls) (n : name).
Definition transtype (c : conv) : option name := match c with Plain _ => None | Typed _ _ _ n => Some n end.
(** Steps of an optimised conversion: a converter or an _OptimizerSmatrixer (1737-1750). *)
Inductive step := SConv (c : conv) | SOpt (m : mat) (to : cls).

(** Values: coordinate objects and matrices (with the attribute [nocache]). *)
Record obj := Obj { ocls : cls; opos : coord; oextra : nat }.
Inductive val := VObj (o : obj) | VMat (m : mat) (nocache : bool).

(** The class attributes of CoordinateSystem.  Dictionaries are association lists (their order stands for
    the dictionary's iteration order); [_converters], a dictionary of dictionaries, is flattened.  *)
Record reg := Reg { convs : list (cls * cls * conv); ttypes : list (name * tid);
                    graph : option (list (cls * cls)); ocache : list (cls * cls * list step) }.
Definition pairb (p q : cls * cls) : bool := (fst p =? fst q) && (snd p =? snd q).
Fixpoint dget {K V} (eqb : K -> K -> bool) (k : K) (l : list (K * V)) : option V :=
  match l with [] => None | (k', v) :: r => if eqb k k' then Some v else dget eqb k r end.
Fixpoint dset {K V} (eqb : K -> K -> bool) (k : K) (v : V) (l : list (K * V)) : list (K * V) :=
  match l with [] => [(k, v)] | (k', v') :: r => if eqb k k' then (k', v) :: r else (k', v') :: dset eqb k v r end.
Fixpoint ddel {K V} (eqb : K -> K -> bool) (k : K) (l : list (K * V)) : list (K * V) :=
  match l with [] => [] | (k', v') :: r => if eqb k k' then r else (k', v') :: ddel eqb k r end.

(** _invalidateTransformCache 1076-1082 *)
Definition invalidate (r : reg) : reg := Reg (convs r) (ttypes r) None [].
(** registerTransform 855-877 with [func] given.  [None] for a class that is not a CoordinateSystem. *)
Definition registerTransform (r : reg) (from to : option cls) (f : fid) (ty : option name) (overwrite : bool) : reg * @res unit :=
  match from, to with
  | Some a, Some b =>
      if negb overwrite && (match dget pairb (a, b) (convs r) with Some _ => true | None => false end) then (r, Raise ValueError)
      else match ty with
           | Some n => match dget Nat.eqb n (ttypes r) with
                       | None => (r, Raise KeyError)
                       | Some t => (invalidate (Reg (dset pairb (a, b) (Typed t f b n) (convs r)) (ttypes r) (graph r) (ocache r)), Ok tt)
                       end
           | None => (invalidate (Reg (dset pairb (a, b) (Plain f) (convs r)) (ttypes r) (graph r) (ocache r)), Ok tt)
           end
  | _, _ => (r, Raise TypeError)
  end.
(** getTransform 880-885 *)
Definition getTransform (r : reg) (a b : cls) : @res conv :=
  match dget pairb (a, b) (convs r) with Some c => Ok c | None => Raise KeyError end.
(** listAllTransforms, listTransformsTo, listTransformsFrom 887-922 *)
Definition listAll (r : reg) : list (cls * cls) := map fst (convs r).
Definition listTo (r : reg) (b : cls) : list cls := map fst (filter (fun p => snd p =? b) (listAll r)).
Definition listFrom (r : reg) (a : cls) : list cls := map snd (filter (fun p => fst p =? a) (listAll r)).
(** delTransform 924-930 *)
Definition delTransform (r : reg) (a b : cls) : reg * @res unit :=
  match dget pairb (a, b) (convs r) with
  | None => (r, Raise KeyError)
  | Some _ => (invalidate (Reg (ddel pairb (a, b) (convs r)) (ttypes r) (graph r) (ocache r)), Ok tt)
  end.
(** addTransType 973-984.  If the name exists, all converters of that type are replaced by closures
    over the loop variables [btfunc] and [k2], which all closures share: they see the last [btfunc]
    assigned and the last class [k2] iterated.  The caches are not invalidated. *)
Definition addTransType (r : reg) (n : name) (t : tid) : reg :=
  let typed c := match transtype c with Some n' => n =? n' | None => false end in
  let cv := match dget Nat.eqb n (ttypes r) with
    | None => convs r
    | Some _ =>
        match last (filter (fun x => typed (snd x)) (convs r)) ((0, 0), Plain 0), last (convs r) ((0, 0), Plain 0) with
        | (_, Typed _ bt _ _), ((_, k2), _) => map (fun x => if typed (snd x) then (fst x, Typed t bt k2 n) else x) (convs r)
        | _, _ => convs r
        end
    end in
  Reg cv (dset Nat.eqb n t (ttypes r)) (graph r) (ocache r).
(** getTransformGraph 1050-1071: the edges of the graph *)
Definition getGraph (r : reg) : reg * list (cls * cls) :=
  match graph r with Some g => (r, g) | None => (Reg (convs r) (ttypes r) (Some (listAll r)) (ocache r), listAll r) end.

(** The outside world: the user's functions, other transformation types, the classes' longitude ranges and
    networkx's shortest_path (installed, version above 1.4).  It is called with [weight=True]: edges have no attribute named True,
    so every edge counts 1 and the class attribute [transweight] has no effect. *)
Record env := Env { sem : fid -> val -> @res val; tsem : tid -> val -> val -> cls -> @res val;
                    crange : cls -> rangearg; sp : list (cls * cls) -> cls -> cls -> @res (list cls) }.
(** transformation types; type 0 is [_smatrix], 1527-1535 *)
Definition applyType (e : env) (t : tid) (x o : val) (to : cls) : @res val :=
  match t with
  | O => match x, o with
         | VMat m _, VObj ob => match smatrix m (opos ob) (crange e to) with
                                | Ok c => Ok (VObj (Obj to c 0)) | Raise ex => Raise ex | OutOfFuel => OutOfFuel end
         | _, _ => Raise AttributeError
         end
  | _ => tsem e t x o to
  end.
Definition applyConv (e : env) (c : conv) (o : val) : @res val :=
  match c with
  | Plain f => sem e f o
  | Typed t f to _ => match sem e f o with Ok x => applyType e t x o to | Raise ex => Raise ex | OutOfFuel => OutOfFuel end
  end.

(** getTransformPath 1013-1048 *)
Definition getTransformPath (e : env) (r : reg) (a b : cls) : reg * @res (conv + list cls) :=
  match dget pairb (a, b) (convs r) with
  | Some c => (r, Ok (inl c))
  | None =>
      let '(r', g) := getGraph r in
      match sp e g a b with
      | Ok [] => (r', Raise NotImplementedError)
      | Ok p => (r', Ok (inr p)) | Raise ex => (r', Raise ex) | OutOfFuel => (r', OutOfFuel)
      end
  end.
(** CoordinateSystem.convert 1084-1110 *)
Fixpoint follow (e : env) (r : reg) (cur : cls) (inter : list cls) (to : cls) (o : val) : @res val :=
  match inter with
  | [] => match dget pairb (cur, to) (convs r) with Some c => applyConv e c o | None => Raise KeyError end
  | i :: rest => match dget pairb (cur, i) (convs r) with
                 | Some c => match applyConv e c o with Ok o' => follow e r i rest to o' | Raise ex => Raise ex | OutOfFuel => OutOfFuel end
                 | None => Raise KeyError end
  end.
Definition convert (e : env) (r : reg) (o : obj) (to : cls) : reg * @res val :=
  match getTransformPath e r (ocls o) to with
  | (r', Ok (inl c)) => (r', applyConv e c (VObj o))
  | (r', Ok (inr p)) => (r', follow e r' (ocls o) (removelast (tl p)) to (VObj o))
  | (r', Raise ex) => (r', Raise ex) | (r', OutOfFuel) => (r', OutOfFuel)
  end.

(** LatLongCoordinates.convert 1638-1735 *)
Definition applyStep (e : env) (s : step) (o : val) : @res val :=
  match s with SConv c => applyConv e c o | SOpt m to => applyType e 0 (VMat m false) o to end.
Fixpoint runSteps (e : env) (l : list step) (o : val) : @res val :=
  match l with [] => Ok o | s :: r => match applyStep e s o with Ok o' => runSteps e r o' | Raise ex => Raise ex | OutOfFuel => OutOfFuel end end.
(** 1680-1716: the loop over the path; [acc] is the combined matrix; the second component says that no matrix forbids caching. *)
Fixpoint buildSteps (e : env) (r : reg) (self : val) (path : list cls) (acc : option mat) : @res (list step * bool) :=
  match path with
  | a :: ((b :: _) as rest) =>
      match dget pairb (a, b) (convs r) with
      | None => Raise KeyError
      | Some c =>
          match c with
          | Typed _ f _ 0 =>
              match sem e f self with
              | Ok (VMat m nc) =>
                  match buildSteps e r self rest (Some (match acc with None => m | Some k => mm m k end)) with
                  | Ok (l, cc) => Ok (l, cc && negb nc) | q => q end
              | Ok _ => Raise TypeError
              | Raise ex => Raise ex | OutOfFuel => OutOfFuel
              end
          | _ => match buildSteps e r self rest acc with
                 | Ok (l, cc) => Ok (match acc with None => SConv c :: l | Some k => SOpt k a :: SConv c :: l end, cc) | q => q end
          end
      end
  | [z] => Ok (match acc with None => [] | Some k => [SOpt k z] end, true)
  | [] => Ok ([], true)
  end.
Definition convertLL (e : env) (r : reg) (o : obj) (to : cls) (optimize : bool) : reg * @res val :=
  if to =? ocls o then (r, Ok (VObj o))
  else if optimize then
    match dget pairb (ocls o, to) (ocache r) with
    | Some l => (r, runSteps e l (VObj o))
    | None =>
        match getTransformPath e r (ocls o) to with
        | (r', Ok p) =>
            match (match p with inl c => Ok ([SConv c], true) | inr path => buildSteps e r' (VObj o) path None end) with
            | Ok (l, cc) => ((if cc then Reg (convs r') (ttypes r') (graph r') (dset pairb (ocls o, to) l (ocache r')) else r'), runSteps e l (VObj o))
            | Raise ex => (r', Raise ex) | OutOfFuel => (r', OutOfFuel)
            end
        | (r', Raise ex) => (r', Raise ex) | (r', OutOfFuel) => (r', OutOfFuel)
        end
    end
  else convert e r o to.

(** Calls made on the registry. *)
Inductive rop := ORegister (from to : option cls) (f : fid) (ty : option name) (overwrite : bool) | ODelete (a b : cls)
  | OAddType (n : name) (t : tid) | OGraph | OPath (a b : cls) | OConvert (o : obj) (to : cls) | OConvertLL (o : obj) (to : cls) (opt : bool).
Definition rstep (e : env) (r : reg) (o : rop) : reg :=
  match o with
  | ORegister a b f ty ow => fst (registerTransform r a b f ty ow) | ODelete a b => fst (delTransform r a b)
  | OAddType n t => addTransType r n t | OGraph => fst (getGraph r) | OPath a b => fst (getTransformPath e r a b)
  | OConvert o to => fst (convert e r o to) | OConvertLL o to opt => fst (convertLL e r o to opt)
  end.
Definition rrun (e : env) (r : reg) (l : list rop) : reg := fold_left (rstep e) l r.
Definition reg0 : reg := Reg [] [(0, 0)] None [].
