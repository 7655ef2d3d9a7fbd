(** * CatalogSpec: what a catalog tree is, and the traversal orders *)
From Coq Require Import List ZArith Lia Bool.
From stdpp Require Import gmap relations.
From Verif Require Import PyBase CatalogModel.
Import ListNotations.

(** ** Forests *)
(** [n.parent is p] *)
Definition parent_of (h : heap) (n p : nat) : Prop := exists x, h !! n = Some x /\ n_parent x = Some p.
(** [n in p.children] *)
Definition child_of (h : heap) (p n : nat) : Prop := exists y, h !! p = Some y /\ In n (n_children y).

(** A node is among the children of exactly its parent, once, and no node is
    its own ancestor. *)
Definition forest (h : heap) : Prop :=
  (forall n p, parent_of h n p <-> child_of h p n) /\
  (forall p y, h !! p = Some y -> NoDup (n_children y)) /\
  (forall n, ~ tc (parent_of h) n n).

(** [n] is [r] or a descendant of [r] *)
Definition within (h : heap) (r n : nat) : Prop := rtc (parent_of h) n r.

(** Histories: reorderChildren gets a permutation (a sort, or non-negative
    indices). *)
Definition op_ok (o : op) : Prop :=
  match o with
  | OReorder _ (NOSeq l) _ => Forall (fun z => (0 <= z)%Z) l
  | OReorder _ (NOCall f) _ => forall cs, Permutation (f cs) cs
  | _ => True
  end.
Definition reachable (h : heap) : Prop := exists ops, Forall op_ok ops /\ h = run ∅ ops.

(** Effect of making [n] a child of [v] (or of nothing) on node [m] *)
Definition others (n : nat) (l : list nat) : list nat := List.filter (fun c => negb (Nat.eqb c n)) l.
Definition reparented (n : nat) (val : option nat) (m : nat) (x : node) : node :=
  {| n_kind := n_kind x;
     n_parent := if Nat.eqb m n then val else n_parent x;
     n_children := others n (n_children x) ++
                   (match val with Some v => if Nat.eqb m v then [n] else [] | None => [] end) |}.

(** Effect on node [m] of moving the nodes [ms] to the end of [self]'s children *)
Definition moved (self : nat) (ms : list nat) (m : nat) (x : node) : node :=
  {| n_kind := n_kind x;
     n_parent := if existsb (Nat.eqb m) ms then Some self else n_parent x;
     n_children := List.filter (fun c => negb (existsb (Nat.eqb c) ms)) (n_children x) ++ (if Nat.eqb m self then ms else []) |}.

(** ** Rose trees *)
Inductive tree := T (n : nat) (ts : list tree).
Definition root (t : tree) : nat := match t with T n _ => n end.

(** [t] is the subtree hanging at its root in [h] *)
Fixpoint represents (h : heap) (t : tree) : Prop :=
  match t with
  | T n ts => (exists x, h !! n = Some x /\ n_children x = List.map root ts) /\
              (fix all (ts : list tree) : Prop :=
                 match ts with [] => True | t :: r => represents h t /\ all r end) ts
  end.

Fixpoint preorder (t : tree) : list nat := match t with T n ts => n :: flat_map preorder ts end.
Fixpoint postorder (t : tree) : list nat := match t with T n ts => flat_map postorder ts ++ [n] end.
(** the node itself between its children number k-1 and k, or last *)
Fixpoint inorder (k : Z) (t : tree) : list nat :=
  match t with
  | T n ts =>
      (fix go (i : Z) (ts : list tree) (doroot : bool) : list nat :=
         match ts with
         | [] => if doroot then [n] else []
         | t :: r => (if Z.eqb i k then [n] else []) ++ inorder k t ++ go (i + 1)%Z r (if Z.eqb i k then false else doroot)
         end) 0%Z ts true
  end.
(** nodes at distance [d] from the root, left to right *)
Fixpoint level (d : nat) (t : tree) : list nat :=
  match t, d with
  | T n _, O => [n]
  | T _ ts, S d' => flat_map (level d') ts
  end.
Fixpoint height (t : tree) : nat := match t with T _ ts => S (fold_right Nat.max 0 (List.map height ts)) end.
Definition levelorder (t : tree) : list nat := flat_map (fun d => level d t) (seq 0 (height t)).

Definition without_root (order : tree -> list nat) (t : tree) : list nat :=
  match t with T _ ts => flat_map order ts end.

(** Calling [f] on each node of a list, in order, threading the state *)
Fixpoint calls {St V} (f : St -> nat -> St * V) (s : St) (l : list nat) : St * list V :=
  match l with
  | [] => (s, [])
  | n :: r => let '(s1, v) := f s n in let '(s2, vs) := calls f s1 r in (s2, v :: vs)
  end.

(** ** What [visit] promises *)
(** The nodes visited, in order ([None]: the call raises or is not covered) *)
Definition order_of (t : traversal) (includeself : bool) (tr : tree) : option (list nat) :=
  match t, includeself with
  | TPre, true => Some (preorder tr)
  | TPre, false => Some (without_root preorder tr)
  | TPost, true => Some (postorder tr)
  | TPost, false => Some (without_root postorder tr)
  | TInt k, true => Some (inorder k tr)
  | TInt k, false => Some (without_root (inorder k) tr)
  | TLevel, true => Some (levelorder tr)
  | TSelf, _ => Some [root tr]
  | _, _ => None
  end.
(** A callable filter restricts the calls and drops None results; any other
    filter value drops the results identical to it. *)
Definition visited {St V} (f : St -> nat -> St * option V) (flt : @filter_arg V) (s : St) (l : list nat) : St * list (option V) :=
  match flt with
  | FFalse => calls f s l
  | FPred g => let '(s', rs) := calls f s (List.filter g l) in
               (s', List.filter (fun r => match r with None => false | Some _ => true end) rs)
  | FVal same => let '(s', rs) := calls f s l in (s', List.filter (fun r => negb (same r)) rs)
  end.
