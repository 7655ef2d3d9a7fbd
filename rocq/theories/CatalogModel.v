(** * CatalogModel: the catalog tree (astropysics/objcat.py)

    [CatalogNode] (99-409: parent property, addChild, removeChild,
    reorderChildren, nnodes, idstr, visit), [ActionNode.__init__] (450-462),
    [FieldNode.__contains__] (612-613), [Catalog.__contains__] (2546-2550),
    [Catalog.mergeNode] (2567-2595) and [Catalog.insertInto] (2597-2612).

    Node objects are numbers.  A node stores its parent and its list of
    children.  Not modelled: pickling (save/load), other attributes, Python's
    recursion limit. *)
From Coq Require Import List ZArith Lia Bool.
From stdpp Require Import gmap.
From Verif Require Import PyBase.
Import ListNotations.

(** Catalog, FieldNode or ActionNode; the children of an ActionNode are an
    (immutable, empty) tuple (462). *)
Inductive kind := KCatalog | KField | KAction.
Record node := { n_kind : kind; n_parent : option nat; n_children : list nat }.
Notation heap := (gmap nat node).

Definition with_parent (p : option nat) (x : node) : node :=
  {| n_kind := n_kind x; n_parent := p; n_children := n_children x |}.
Definition with_children (c : list nat) (x : node) : node :=
  {| n_kind := n_kind x; n_parent := n_parent x; n_children := c |}.

(** [v._cycleCheck(source)] (129-139): climb from [v] to the root *)
Fixpoint cycleCheck (fuel : nat) (h : heap) (v source : nat) : res unit :=
  match fuel with
  | O => OutOfFuel
  | S fuel' =>
      if Nat.eqb source v then Raise CycleError
      else match h !! v with
           | None => Raise AttributeError          (* not a node *)
           | Some x => match n_parent x with
                       | None => Ok tt
                       | Some p => cycleCheck fuel' h p source
                       end
           end
  end.

(** [for i,c in enumerate(children): if c is self: break] (150-154) *)
Fixpoint find_index (n : nat) (l : list nat) : option nat :=
  match l with
  | [] => None
  | c :: r => if Nat.eqb c n then Some O else option_map S (find_index n r)
  end.

(** 148-156: detach from the old parent, then store the new one *)
Definition detach_and_set (n : nat) (val : option nat) (h : heap) : heap * res unit :=
  match h !! n with
  | None => (h, Raise AttributeError)
  | Some x =>
    match n_parent x with
    | None => (<[n := with_parent val x]> h, Ok tt)
    | Some p =>
        match h !! p with
        | None => (h, Raise AttributeError)
        | Some y =>
            match find_index n (n_children y) with
            | None => (h, Raise ValueError)
            | Some i =>
                let h1 := <[p := with_children (remove_at i (n_children y)) y]> h in
                match h1 !! n with
                | None => (h1, Raise AttributeError)
                | Some x1 => (<[n := with_parent val x1]> h1, Ok tt)
                end
            end
        end
    end
  end.

(** _setParent (143-156) *)
Definition setParent (fuel : nat) (n : nat) (val : option nat) (h : heap) : heap * res unit :=
  match h !! n with None => (h, Raise AttributeError) | Some _ =>   (* self is a node *)
  match val with
  | None => detach_and_set n None h
  | Some v =>
      match cycleCheck fuel h v n with
      | Raise e => (h, Raise e)
      | OutOfFuel => (h, OutOfFuel)
      | Ok _ =>
          match h !! v with
          | None => (h, Raise AttributeError)
          | Some y =>
              match n_kind y with
              | KAction => (h, Raise AttributeError)        (* tuple has no append *)
              | _ => detach_and_set n val (<[v := with_children (n_children y ++ [n]) y]> h)
              end
          end
      end
  end
  end.

(** fuel that is always enough (proved) *)
Definition enough (h : heap) : nat := S (size h).

(** Constructor of a new node: CatalogNode.__init__ (116-121), and
    ActionNode.__init__ which then replaces the children by a tuple (462).
    [initfails]: FieldNode.__init__ (522-538) raises while assigning keyword
    values, after the node has been attached. *)
Definition newNode (n : nat) (k : kind) (parent : option nat) (initfails : bool) (h : heap) : heap * res unit :=
  match h !! n with
  | Some _ => (h, Raise AttributeError)      (* not a new object: excluded by callers *)
  | None =>
      let h1 := <[n := {| n_kind := k; n_parent := None; n_children := [] |}]> h in
      match parent with
      | None => (h1, if initfails then Raise IndexError else Ok tt)
      | Some _ =>
          match setParent (enough h1) n parent h1 with
          | (h2, Ok _) => (h2, if initfails then Raise IndexError else Ok tt)
          | (h2, r) => (h2, r)
          end
      end
  end.

(** addChild (207-214) *)
Definition addChild (p n : nat) (h : heap) : heap * res unit :=
  match h !! n with
  | Some x => match n_kind x with
              | KField => setParent (enough h) n (Some p) h
              | _ => (h, Raise ValueError)
              end
  | None => (h, Raise ValueError)
  end.

(** [node not in self] (223): for a Catalog membership in the children by
    equality ([eqv]: FieldNodes compare by their values, 603-607; 2546-2550), for a FieldNode membership among the field
    NAMES (612-613), which a node never is; an ActionNode is not a container. *)
Definition removeChild (eqv : nat -> nat -> bool) (p n : nat) (h : heap) : heap * res unit :=
  match h !! p with
  | None => (h, Raise AttributeError)
  | Some y =>
      match n_kind y with
      | KField => (h, Raise ValueError)
      | KAction => (h, Raise TypeError)
      | KCatalog =>
          if existsb (fun c => (Nat.eqb c n || eqv c n)%bool) (n_children y)
          then setParent (enough h) n None h
          else (h, Raise ValueError)
      end
  end.

(** reorderChildren (165-205).  [NOSeq] with integers; [NOCall]: a callable,
    which is ignored: the children are sorted with the default order (192-193)
    whose outcome is [sorted]; [NONone]: treated as a one-element sequence.
    Nodes that are themselves sequences (FieldNodes) can make numpy build a
    two-dimensional array at 205: not modelled. *)
Inductive neworder := NOReverse | NOCall (sorted : list nat -> list nat) | NONone | NOSeq (l : list Z).

Fixpoint z_mem (x : Z) (l : list Z) : bool :=
  match l with [] => false | y :: r => (Z.eqb x y || z_mem x r)%bool end.
Fixpoint z_unique (l : list Z) : bool :=
  match l with [] => true | x :: r => (negb (z_mem x r) && z_unique r)%bool end.
Fixpoint take_all (cs : list nat) (l : list Z) : option (list nat) :=
  match l with
  | [] => Some []
  | i :: r => match py_get cs i, take_all cs r with
              | Some c, Some cs' => Some (c :: cs')
              | _, _ => None
              end
  end.

Definition reorderChildren (p : nat) (o : neworder) (inverseinds : bool) (h : heap) : heap * res unit :=
  match h !! p with
  | None => (h, Raise AttributeError)
  | Some y =>
      let cs := n_children y in
      match n_kind y, o with
      | KAction, (NOReverse | NOCall _) => (h, Raise AttributeError)
      | _, NOReverse => (<[p := with_children (rev cs) y]> h, Ok tt)
      | _, NOCall f => (<[p := with_children (f cs) y]> h, Ok tt)
      | _, NONone => (h, if Nat.eqb (length cs) 1 then Raise IndexError else Raise ValueError)
      | k, NOSeq l =>
          if negb (Nat.eqb (length l) (length cs)) then (h, Raise ValueError)
          else if negb (z_unique l) then (h, Raise ValueError)
          else if inverseinds then (h, Raise NameError)          (* argsort *)
          else match take_all cs l with
               | None => (h, Raise IndexError)
               | Some cs' => match k with
                             | KAction => (h, Raise TypeError)    (* item assignment on a tuple *)
                             | _ => (<[p := with_children cs' y]> h, Ok tt)
                             end
               end
      end
  end.

(** mergeNode (2567-2595).  [nameof n] is [n['name']], evaluated for every child
    of [self] first (2586: it raises for a child without such a field) and, if
    [skipdup], for the children of [other]; [testfunc] may raise.  The tuple of
    children is taken before the loop.  [None] names are possible (an empty
    field) and compare equal. *)
Fixpoint names (nameof : nat -> res nat) (cs : list nat) : res (list nat) :=
  match cs with
  | [] => Ok []
  | c :: r => match nameof c with
              | Ok a => match names nameof r with Ok l => Ok (a :: l) | Raise e => Raise e | OutOfFuel => OutOfFuel end
              | Raise e => Raise e
              | OutOfFuel => OutOfFuel
              end
  end.
Definition skipped (nameof : nat -> res nat) (testfunc : nat -> res bool) (skipdup : bool) (nms : list nat) (c : nat) : res bool :=
  let test := match testfunc c with Ok b => Ok (negb b) | Raise e => Raise e | OutOfFuel => OutOfFuel end in
  if skipdup then
    match nameof c with
    | Ok a => if existsb (Nat.eqb a) nms then Ok true else test
    | Raise e => Raise e
    | OutOfFuel => OutOfFuel
    end
  else test.
Fixpoint merge_loop (self : nat) (skip : nat -> res bool) (cs : list nat) (h : heap) (count : nat) : heap * res nat :=
  match cs with
  | [] => (h, Ok count)
  | c :: r => match skip c with
              | Raise e => (h, Raise e)
              | OutOfFuel => (h, OutOfFuel)
              | Ok true => merge_loop self skip r h count
              | Ok false => match setParent (enough h) c (Some self) h with
                   | (h', Ok _) => merge_loop self skip r h' (S count)
                   | (h', Raise e) => (h', Raise e)
                   | (h', OutOfFuel) => (h', OutOfFuel)
                   end
              end
  end.
Definition mergeNode (self other : nat) (nameof : nat -> res nat) (testfunc : nat -> res bool) (skipdup : bool) (h : heap) : heap * res nat :=
  match h !! self, h !! other with
  | Some x, Some y =>
      match names nameof (n_children x) with
      | Ok nms => merge_loop self (skipped nameof testfunc skipdup nms) (n_children y) h 0
      | Raise e => (h, Raise e)
      | OutOfFuel => (h, OutOfFuel)
      end
  | _, _ => (h, Raise AttributeError)
  end.

(** insertInto (2597-2612): [newparent.index] does not exist on a Catalog; on a
    FieldNode it searches the field values. *)
Definition insertInto (self ins : nat) (h : heap) : heap * res unit :=
  match h !! ins with
  | None => (h, Raise AttributeError)
  | Some x => match n_parent x with
              | None => (h, Raise AttributeError)
              | Some p => match h !! p with
                          | Some y => (h, match n_kind y with KField => Raise ValueError | _ => Raise AttributeError end)
                          | None => (h, Raise AttributeError)
                          end
              end
  end.

(** ** Histories *)
Inductive op :=
| ONew (n : nat) (k : kind) (parent : option nat) (initfails : bool)
| OSetParent (n : nat) (val : option nat)
| OAddChild (p n : nat)
| ORemoveChild (eqv : nat -> nat -> bool) (p n : nat)
| OReorder (p : nat) (o : neworder) (inverseinds : bool)
| OMerge (self other : nat) (nameof : nat -> res nat) (testfunc : nat -> res bool) (skipdup : bool)
| OInsertInto (self ins : nat).

Definition step (h : heap) (o : op) : heap :=
  match o with
  | ONew n k p f => fst (newNode n k p f h)
  | OSetParent n v => fst (setParent (enough h) n v h)
  | OAddChild p n => fst (addChild p n h)
  | ORemoveChild e p n => fst (removeChild e p n h)
  | OReorder p o i => fst (reorderChildren p o i h)
  | OMerge a b nf tf sd => fst (mergeNode a b nf tf sd h)
  | OInsertInto a b => fst (insertInto a b h)
  end.
Fixpoint run (h : heap) (ops : list op) : heap :=
  match ops with [] => h | o :: r => run (step h o) r end.

(** ** Traversal *)
Section Visit.
Context {St V : Type}.                 (* state changed by func; its values *)
Notation R := (option V).              (* [None] is Python's None *)
Variable h : heap.

(** nnodes (228-234) *)
Fixpoint nnodes (fuel : nat) (n : nat) : option nat :=
  match fuel with
  | O => None
  | S fuel' => match h !! n with
      | None => None
      | Some x => (fix sum (cs : list nat) : option nat :=
                     match cs with
                     | [] => Some 1
                     | c :: r => match nnodes fuel' c, sum r with
                                 | Some a, Some b => Some (a + b)
                                 | _, _ => None
                                 end
                     end) (n_children x)
      end
  end.

(** [retvals.extend(c.visit(...))] for each child (331-332) *)
Fixpoint visit_list (rec : nat -> St -> option (St * list R)) (cs : list nat) (s : St) : option (St * list R) :=
  match cs with
  | [] => Some (s, [])
  | c :: r => match rec c s with
              | None => None
              | Some (s1, r1) => match visit_list rec r s1 with
                                 | None => None
                                 | Some (s2, r2) => Some (s2, r1 ++ r2)
                                 end
              end
  end.

Definition fcall := St -> nat -> St * R.

(** postorder (329-334) *)
Fixpoint visit_post (fuel : nat) (f : fcall) (includeself : bool) (n : nat) (s : St) : option (St * list R) :=
  match fuel with
  | O => None
  | S fuel' =>
      match h !! n with
      | None => None
      | Some x =>
          match visit_list (visit_post fuel' f true) (n_children x) s with
          | None => None
          | Some (s1, rs) => if includeself then let '(s2, v) := f s1 n in Some (s2, rs ++ [v])
                             else Some (s1, rs)
          end
      end
  end.

(** integer traversal (308-317) *)
Fixpoint int_loop (rec : nat -> St -> option (St * list R)) (f : fcall) (t : Z) (includeself : bool) (self : nat)
    (i : Z) (cs : list nat) (s : St) (doroot : bool) : option (St * list R) :=
  match cs with
  | [] => if (doroot && includeself)%bool then let '(s1, v) := f s self in Some (s1, [v]) else Some (s, [])
  | c :: r =>
      let '(s1, pre, dr) := if (Z.eqb i t && includeself)%bool
                            then let '(s1, v) := f s self in (s1, [v], false) else (s, [], doroot) in
      match rec c s1 with
      | None => None
      | Some (s2, r1) => match int_loop rec f t includeself self (i + 1) r s2 dr with
                         | None => None
                         | Some (s3, r2) => Some (s3, pre ++ r1 ++ r2)
                         end
      end
  end.
Fixpoint visit_int (fuel : nat) (f : fcall) (t : Z) (includeself : bool) (n : nat) (s : St) : option (St * list R) :=
  match fuel with
  | O => None
  | S fuel' =>
      match h !! n with
      | None => None
      | Some x => int_loop (visit_int fuel' f t true) f t includeself n 0 (n_children x) s true
      end
  end.

(** level order (337-345) *)
Fixpoint level_loop (fuel : nat) (f : fcall) (q : list nat) (s : St) : option (St * list R) :=
  match q with
  | [] => Some (s, [])
  | e :: r =>
      match fuel with
      | O => None
      | S fuel' =>
          match h !! e with
          | None => None
          | Some x => let '(s1, v) := f s e in
                      match level_loop fuel' f (r ++ n_children x) s1 with
                      | None => None
                      | Some (s2, rs) => Some (s2, v :: rs)
                      end
          end
      end
  end.

Inductive traversal := TInt (t : Z) | TFloat | TPost | TPre | TLevel | TSelf | TOther.

(** [filter] argument: False, a callable, or another value [v] (then results
    identical to it, [same], are dropped). *)
Inductive filter_arg := FFalse | FPred (g : nat -> bool) | FVal (same : R -> bool).

Definition is_none (r : R) : bool := match r with None => true | Some _ => false end.

(** 297-306: the function actually called, and which results are dropped *)
Definition wrap (flt : filter_arg) (f : fcall) : fcall :=
  match flt with
  | FPred g => fun s n => if g n then f s n else (s, None)
  | _ => f
  end.
(** 351-352 *)
Definition drop (flt : filter_arg) (rs : list R) : list R :=
  match flt with
  | FFalse => rs
  | FPred _ => List.filter (fun r => negb (is_none r)) rs
  | FVal same => List.filter (fun r => negb (same r)) rs
  end.

Definition out (o : option (St * list R)) (flt : filter_arg) : res (St * list R) :=
  match o with Some (s, rs) => Ok (s, drop flt rs) | None => OutOfFuel end.

(** visit (256-353) *)
Definition visit (fuel : nat) (f : fcall) (t : traversal) (flt : filter_arg) (includeself : bool) (n : nat) (s : St)
  : res (St * list R) :=
  let f1 := wrap flt f in
  match t with
  | TInt z => out (visit_int fuel f1 z includeself n s) flt
  | TFloat => Raise TypeError                    (* float * list, 321 *)
  | TPost => out (visit_post fuel f1 includeself n s) flt
  | TPre => (* self.visit(func,0,filter,includeself): wrapped and filtered once more, 336 *)
      match out (visit_int fuel (wrap flt f1) 0 includeself n s) flt with
      | Ok (s', rs) => Ok (s', drop flt rs)
      | r => r
      end
  | TLevel => out (level_loop fuel f1 (if includeself then [n] else []) s) flt
  | TSelf => let '(s', v) := f1 s n in Ok (s', drop flt [v])
  | TOther => Raise ValueError
  end.
End Visit.

(** idstr (236-253): depth, index among the siblings, root; a root has only
    itself. *)
Fixpoint climb (fuel : nat) (h : heap) (n : nat) (i : nat) : option (nat * nat) :=
  match fuel with
  | O => None
  | S fuel' => match h !! n with
               | None => None
               | Some x => match n_parent x with
                           | None => Some (i, n)
                           | Some p => climb fuel' h p (S i)
                           end
               end
  end.
Inductive idstr_v := IdRoot (r : nat) | IdNode (depth index root : nat).
Definition idstr (h : heap) (n : nat) : option idstr_v :=
  match h !! n with
  | None => None
  | Some x =>
      match n_parent x with
      | None => Some (IdRoot n)
      | Some p =>
          match climb (enough h) h n 0, h !! p with
          | Some (i, r), Some y =>
              Some (IdNode i (match find_index n (n_children y) with Some j => j | None => length (n_children y) end) r)
          | _, _ => None
          end
      end
  end.
