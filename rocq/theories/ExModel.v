(** * ExModel: searching a tree of nodes with Fields (astropysics/objcat.py 729-760, 789-1072, 1074-1086, 2616-2650: setToSourceAtNode,
    extractFieldAtNode, getFieldValueNodesAtNode, getFieldNames, locateName).  The tree and visit are those of CatalogModel, the Fields those of FnModel.
    An exception of the function ends visit: it is kept in the state and nothing is done afterwards.  Lists stand for numpy arrays (of values that numpy does
    not convert).  [other n k] is the attribute k of the Catalog n (such as its name).  Left out: filter values that are not callable, missing='masked', errors,
    asrec; names of Fields are no attributes of the class FieldNode. *)
From Coq Require Import List ZArith Bool Ascii String.
From Verif Require Import PyBase PubModel FieldModel FnModel.
From Verif Require CatalogModel CatalogSpec.
Import ListNotations.

Notation heap := (gmap.gmap nat CatalogModel.node).
Section Extract.
Context {V : Type}.
Notation world := (@world V).
Notation answer := (@answer V).
Variable h : heap.
Variable other : nat -> str -> option V.
Definition kindOf (n : nat) : option CatalogModel.kind := option_map CatalogModel.n_kind (base.lookup n h).

(** visit 256-353 with a function that can raise *)
Definition guarded {S X} (body : S -> nat -> S * @res (option X)) (s : S * option exn) (n : nat) : (S * option exn) * option X :=
  match snd s with
  | Some _ => (s, None)
  | None => match body (fst s) n with (s', Ok r) => ((s', None), r) | (s', Raise e) => ((s', Some e), None) | (s', OutOfFuel) => ((s', None), None) end
  end.
Definition walk {S X} (body : S -> nat -> S * @res (option X)) (t : CatalogModel.traversal) (flt : @CatalogModel.filter_arg X) (incl : bool) (n : nat) (s : S) : S * @res (list (option X)) :=
  match CatalogModel.visit h (CatalogModel.enough h) (guarded body) t flt incl n (s, None) with
  | Ok ((s', None), l) => (s', Ok l)
  | Ok ((s', Some e), _) => (s', Raise e)
  | Raise e => (s, Raise e)
  | OutOfFuel => (s, OutOfFuel)
  end.
(** a function that changes nothing *)
Definition look {X} (body : nat -> @res (option X)) t flt incl n : @res (list (option X)) := snd (walk (fun (s : unit) m => (s, body m)) t flt incl n tt).

(** node[k]: FieldNode 615-641, Catalog 2551-2554 (text: getattr), ActionNode: no __getitem__ *)
Definition item (w : world) (n : nat) (k : str) : @res (option answer) :=
  match kindOf n with
  | Some CatalogModel.KField => bindr (FnModel.getitem w n (NStr k)) (fun a => Ok (match a with Nothing => None | _ => Some a end))
  | Some CatalogModel.KCatalog => match other n k with Some v => Ok (Some (Value v)) | None => Raise AttributeError end
  | _ => Raise TypeError
  end.
Definition caught (e : exn) : bool := match e with KeyError | IndexError | TypeError | AttributeError => true | _ => false end.
Inductive missing := MRaise | MSkip | MMask | MFill (d : option answer).
(** visitfunc 874-908; without converter it is Ok *)
Definition visitfunc (w : world) (zero : option answer) (m : missing) (conv : option answer -> @res (option answer)) (k : str) (n : nat) : @res (option answer) :=
  let d := match m with MFill d => d | _ => zero end in
  match m, bindr (item w n k) conv with
  | MRaise, r => r
  | _, Raise e => if caught e then Ok d else Raise e
  | _, r => r
  end.
(** maskfunc 910-915 *)
Definition maskfunc (w : world) (k : str) (n : nat) : @res (option bool) :=
  match item w n k with Ok _ => Ok (Some true) | Raise e => if caught e then Ok (Some false) else Raise e | OutOfFuel => OutOfFuel end.
(** srcfunc 944-948 *)
Definition srcfunc (w : world) (k : str) (n : nat) : @res (option nat) :=
  match kindOf n with
  | Some CatalogModel.KField => match n_attr (nodes w n) k with Some i => match getCurr (f_vals (fobjs w i)) with Ok v => Ok (Some (v_src v)) | _ => Ok None end | None => Ok None end
  | _ => Ok None
  end.
(** filter: False or a callable *)
Definition filterArg {X} (g : option (nat -> bool)) : @CatalogModel.filter_arg X := match g with None => CatalogModel.FFalse | Some g => CatalogModel.FPred g end.
Fixpoint mapM {A B} (f : A -> @res B) (l : list A) : @res (list B) := match l with [] => Ok [] | a :: r => bindr (f a) (fun b => bindr (mapM f r) (fun t => Ok (b :: t))) end.
(** a[m] with an array of bool of the same length; an empty list makes an array of floats *)
Fixpoint sift {A} (a : list A) (m : list bool) : list A := match a, m with x :: a', b :: m' => if b then x :: sift a' m' else sift a' m' | _, _ => [] end.
Definition pickMask {A} (m : list (option bool)) (a : list A) : @res (list A) :=
  if Nat.eqb (List.length a) (List.length m) && negb (Nat.eqb (List.length m) 0) then Ok (sift a (map (fun b => match b with Some true => true | _ => false end) m)) else Raise IndexError.
(** one name gives its list, several a list of lists 1017-1023 *)
Inductive table A := One (l : list A) | Many (l : list (list A)).
Arguments One {A}. Arguments Many {A}.
Definition tabled {A} (l : list (list A)) : table A := match l with [x] => One x | _ => Many l end.
Record result := Result { r_vals : table (option answer); r_mask : option (table (option bool)); r_srcs : option (table (option nat)) }.
(** extractFieldAtNode 789-1050, asrec and errors False *)
Definition extractFieldAtNode (w : world) (n : nat) (names : list str) (t : CatalogModel.traversal) (g : option (nat -> bool)) (zero : option answer) (m : missing) (conv : option answer -> @res (option answer)) (sources incl : bool) : @res result :=
  bindr (mapM (fun k => bindr (look (visitfunc w zero m conv k) t (filterArg g) incl n) (fun l => bindr (look (maskfunc w k) t (filterArg g) incl n) (fun b => Ok (l, b)))) names) (fun cols =>
  bindr (match m, cols with MSkip, [] => Raise IndexError | MSkip, (_, b) :: _ => mapM (fun c => pickMask b (fst c)) cols | _, _ => Ok (map fst cols) end) (fun lsts =>
  bindr (if sources then bindr (mapM (fun k => look (srcfunc w k) t (filterArg g) incl n) names) (fun s => Ok (Some s)) else Ok None) (fun srcs =>
  match m, srcs with
  | MSkip, Some _ => Raise TypeError   (* srcs[m] of a list 1037-1038 *)
  | _, _ => Ok (Result (tabled lsts) (match m with MMask => Some (tabled (map snd cols)) | _ => None end) (option_map tabled srcs))
  end))).

(** getFieldValueNodesAtNode 1074-1086: visit with filter None *)
Definition noneFilter {X} : @CatalogModel.filter_arg X := CatalogModel.FVal (fun r => match r with None => true | Some _ => false end).
Definition fieldIs (eqv : V -> V -> bool) (w : world) (k : str) (x : V) (n : nat) : @res (option nat) :=
  match kindOf n with
  | Some CatalogModel.KField => match n_attr (nodes w n) k with
                                | None => Ok None
                                | Some i => bindr (getCurr (f_vals (fobjs w i))) (fun v => Ok (if eqv (v_val v) x then Some n else None))
                                end
  | _ => Ok None   (* no such attribute, or one that cannot be called *)
  end.
Definition getFieldValueNodesAtNode eqv (w : world) (n : nat) (k : str) (x : V) (t : CatalogModel.traversal) (incl : bool) : @res (list (option nat)) := look (fieldIs eqv w k x) t noneFilter incl n.
(** Catalog.getFieldNames 2628-2637: a set *)
Definition getFieldNames (w : world) (n : nat) : @res (list str) :=
  match walk (fun (s : list str) m => (match kindOf m with Some CatalogModel.KField => s ++ n_names (nodes w m) | _ => s end, Ok (@None nat))) CatalogModel.TPost CatalogModel.FFalse true n [] with
  | (s, Ok _) => Ok s
  | (_, Raise e) => Raise e
  | (_, OutOfFuel) => OutOfFuel
  end.
(** setToSourceAtNode 729-760 of a FieldNode, siblings False *)
Definition setToSourceAtNode (w : world) (n : nat) (src : @key V) (m : FnModel.missing) (t : CatalogModel.traversal) : world * @res (list (option nat)) :=
  walk (fun w m' => match kindOf m' with Some CatalogModel.KField => let (w', r) := setToSource w m' src m in (w', bindr r (fun _ => Ok (Some m'))) | _ => (w, Ok None) end) t noneFilter true n w.
End Extract.
Arguments One {A}. Arguments Many {A}.
