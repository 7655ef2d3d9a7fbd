(** * CatalogProps: C10, C11, C12 *)
From Coq Require Import List ZArith Lia Bool.
From stdpp Require Import gmap relations.
From Verif Require Import PyBase CatalogModel CatalogSpec CatalogForest CatalogVisit CatalogMore.
Import ListNotations.

(** ** C10: every history leaves a forest *)
Theorem C10_forest : forall ops, Forall op_ok ops -> forest (run ∅ ops).
Proof. intros ops H. apply reachable_forest. exists ops. auto. Qed.
Print Assumptions C10_forest.

(** A catalog 0 with a field node 1 that has children 2 and 3; an action node 4
    below 0; a catalog 5.  The last three calls fail (cycle, cycle, an action
    node as parent). *)
Definition ex_ops : list op :=
  [ONew 0 KCatalog None false; ONew 1 KField (Some 0) false; ONew 2 KField (Some 1) false; ONew 3 KField (Some 1) false;
   ONew 4 KAction (Some 0) false; ONew 5 KCatalog None false;
   OSetParent 0 (Some 3); OAddChild 2 2; OSetParent 3 (Some 4); OReorder 1 NOReverse false].
Definition dump (h : heap) : list (nat * (option nat * list nat)) :=
  List.map (fun i => match h !! i with Some x => (i, (n_parent x, n_children x)) | None => (i, (None, [])) end) (seq 0 6).
Example C10_ex : Forall op_ok ex_ops /\
  dump (run ∅ ex_ops) = [(0, (None, [1; 4])); (1, (Some 0, [3; 2])); (2, (Some 1, [])); (3, (Some 1, [])); (4, (Some 0, [])); (5, (None, []))].
Proof. split; [repeat constructor|vm_compute; reflexivity]. Qed.

(** reorderChildren accepts [[0, -2]] for two children: the two indices are
    different but name the same child, which is then listed twice while the
    other one disappears from the children of its parent. *)
Theorem C10_negative_reorder_refuted : exists ops h', h' = run ∅ (ops ++ [OReorder 1 (NOSeq [0; -2]%Z) false]) /\
  Forall op_ok ops /\ child_of h' 1 2 /\ parent_of h' 3 1 /\ ~ child_of h' 1 3 /\ ~ forest h'.
Proof.
  exists [ONew 0 KCatalog None false; ONew 1 KField (Some 0) false; ONew 2 KField (Some 1) false; ONew 3 KField (Some 1) false].
  eexists. split; [reflexivity|]. split; [repeat constructor|].
  set (h' := run ∅ _).
  assert (E1 : exists x, h' !! 1 = Some x /\ n_children x = [2; 2]).
  { destruct (h' !! 1) as [x|] eqn:E; vm_compute in E; [|discriminate]. injection E as <-. eexists; split; reflexivity. }
  assert (E3 : exists x, h' !! 3 = Some x /\ n_parent x = Some 1).
  { destruct (h' !! 3) as [x|] eqn:E; vm_compute in E; [|discriminate]. injection E as <-. eexists; split; reflexivity. }
  destruct E1 as (x1 & E1 & C1), E3 as (x3 & E3 & P3).
  assert (Hn : ~ child_of h' 1 3).
  { intros (y & Ey & Hin). replace y with x1 in Hin by congruence. rewrite C1 in Hin. cbn in Hin. intuition discriminate. }
  split_and!; auto.
  - exists x1. rewrite C1. split; auto. now left.
  - exists x3. auto.
  - intros (HL & _). apply Hn, HL. exists x3. auto.
Qed.
Print Assumptions C10_negative_reorder_refuted.

(** ** C11: moving nodes *)
(** Assigning [n.parent = val]: CycleError exactly when the new parent is the
    node or one of its descendants, AttributeError exactly for an ActionNode as
    parent; a failing assignment changes nothing; a successful one changes
    exactly the two parents' child lists and the node's parent. *)
Theorem C11_setParent : forall h n val, reachable h -> is_Some (h !! n) ->
  (forall v, val = Some v -> is_Some (h !! v)) ->
  let '(h', r) := setParent (enough h) n val h in
  (r = Raise CycleError <-> exists v, val = Some v /\ within h n v) /\
  (r = Raise AttributeError <-> exists v y, val = Some v /\ ~ within h n v /\ h !! v = Some y /\ n_kind y = KAction) /\
  (r <> Ok tt -> h' = h) /\ r <> OutOfFuel /\
  (r = Ok tt -> forall m, h' !! m = option_map (reparented n val m) (h !! m)) /\
  (r = Ok tt \/ r = Raise CycleError \/ r = Raise AttributeError).
Proof. intros h n val H. apply setParent_char. now apply reachable_forest. Qed.
Print Assumptions C11_setParent.

(** The whole subtree moves with the node. *)
Theorem C11_subtree_moves : forall h n val h' , reachable h -> is_Some (h !! n) ->
  (forall v, val = Some v -> is_Some (h !! v)) ->
  setParent (enough h) n val h = (h', Ok tt) -> forall m, within h' n m <-> within h n m.
Proof.
  intros h n val h' Hr (x & Ex) Hv E. pose proof (reachable_forest h Hr) as HF.
  pose proof (setParent_char h n val HF (ex_intro _ x Ex) Hv) as Hc. rewrite E in Hc.
  destruct Hc as (C1 & _ & _ & _ & C5 & _). apply (reparent_within h h' n val x); auto.
  destruct val as [v|]; auto. split; [apply Hv; reflexivity|].
  intros Hw. assert (Hx : @Ok unit tt = Raise CycleError) by (apply C1; eauto). discriminate.
Qed.
Print Assumptions C11_subtree_moves.

(** [p.addChild(n)]: ValueError and no change unless [n] is a FieldNode, else
    exactly the assignment [n.parent = p]. *)
Theorem C11_addChild : forall h p y n, reachable h -> h !! p = Some y ->
  let '(h', r) := addChild p n h in
  ((forall x, h !! n = Some x -> n_kind x <> KField) -> r = Raise ValueError /\ h' = h) /\
  (forall x, h !! n = Some x -> n_kind x = KField ->
     (within h n p -> r = Raise CycleError /\ h' = h) /\
     (~ within h n p -> n_kind y = KAction -> r = Raise AttributeError /\ h' = h) /\
     (~ within h n p -> n_kind y <> KAction -> r = Ok tt /\ forall m, h' !! m = option_map (reparented n (Some p) m) (h !! m))).
Proof. intros h p y n H. apply addChild_char. now apply reachable_forest. Qed.
Print Assumptions C11_addChild.

(** Creating a node [n] below [p] adds exactly that node, as the last child of
    [p] - also when the constructor then raises while assigning field values
    ([fails]), which leaves the half-built node in the tree. *)
Theorem C11_new : forall h n k p y fails, reachable h -> h !! n = None -> h !! p = Some y -> n_kind y <> KAction ->
  exists h', newNode n k (Some p) fails h = (h', if fails : bool then Raise IndexError else Ok tt) /\
    h' !! n = Some {| n_kind := k; n_parent := Some p; n_children := [] |} /\
    h' !! p = Some (with_children (n_children y ++ [n]) y) /\
    forall m, m <> n -> m <> p -> h' !! m = h !! m.
Proof. intros h n k p y fails H. apply newNode_char. now apply reachable_forest. Qed.
Print Assumptions C11_new.

(** [catalog.removeChild(n)] when no child of the catalog other than [n]
    compares equal to [n]. *)
Theorem C11_removeChild : forall h p y n eqv, reachable h -> h !! p = Some y -> n_kind y = KCatalog ->
  (forall c, In c (n_children y) -> eqv c n = true -> c = n) ->
  let '(h', r) := removeChild eqv p n h in
  (child_of h p n -> r = Ok tt /\ forall m, h' !! m = option_map (reparented n None m) (h !! m)) /\
  (~ child_of h p n -> r = Raise ValueError /\ h' = h).
Proof. intros h p y n eqv H. apply removeChild_char. now apply reachable_forest. Qed.
Print Assumptions C11_removeChild.

(** reorderChildren with a permutation [l] of 0..n-1: child number [k] becomes
    the old child number [l[k]]. *)
Theorem C11_reorder : forall h p y l, reachable h -> h !! p = Some y -> n_kind y <> KAction ->
  length l = length (n_children y) -> List.NoDup l -> Forall (fun i => i < length (n_children y)) l ->
  exists cs, reorderChildren p (NOSeq (List.map Z.of_nat l)) false h = (<[p := with_children cs y]> h, Ok tt) /\
    Permutation cs (n_children y) /\ forall k i, nth_error l k = Some i -> nth_error cs k = nth_error (n_children y) i.
Proof. intros h p y l H. apply reorder_char. now apply reachable_forest. Qed.
Print Assumptions C11_reorder.

(** mergeNode moves exactly the children of [other] that pass, in order, to the
    end of [self]'s children and returns their number. *)
Theorem C11_merge : forall h self other nameof testfunc skipdup x y nms, reachable h ->
  h !! self = Some x -> n_kind x <> KAction -> h !! other = Some y ->
  names nameof (n_children x) = Ok nms ->
  (forall c, In c (n_children y) -> exists b, skipped nameof testfunc skipdup nms c = Ok b) ->
  let ms := List.filter (fun c => match skipped nameof testfunc skipdup nms c with Ok false => true | _ => false end) (n_children y) in
  (forall c, In c ms -> ~ within h c self) ->
  exists h', mergeNode self other nameof testfunc skipdup h = (h', Ok (length ms)) /\
    forall m, h' !! m = option_map (moved self ms m) (h !! m).
Proof. intros h self other nameof testfunc skipdup x y nms H. apply mergeNode_spec. now apply reachable_forest. Qed.
Print Assumptions C11_merge.
Example C11_merge_ex :
  let h := run ∅ ex_ops in
  let r := mergeNode 5 1 (fun n => Ok n) (fun c => Ok (Nat.eqb c 3)) true h in
  snd r = Ok 1 /\ dump (fst r) =
    [(0, (None, [1; 4])); (1, (Some 0, [2])); (2, (Some 1, [])); (3, (Some 5, [])); (4, (Some 0, [])); (5, (None, [3]))].
Proof. vm_compute. auto. Qed.

(** [fieldnode.removeChild(child)] always raises ValueError: the membership
    test looks at field names. *)
Theorem C11_removeChild_fieldnode_refuted : forall h p y n eqv, h !! p = Some y -> n_kind y = KField ->
  removeChild eqv p n h = (h, Raise ValueError).
Proof. intros h p y n eqv Ey Ek. unfold removeChild. now rewrite Ey, Ek. Qed.
(** [catalog.removeChild(n)] where [n] only compares equal to a child: [n] is
    removed from its real parent, the equal child stays. *)
Theorem C11_removeChild_equal_refuted : exists ops eqv, Forall op_ok ops /\ ~ child_of (run ∅ ops) 5 3 /\
  let r := removeChild eqv 5 3 (run ∅ ops) in
  snd r = Ok tt /\ dump (run ∅ ops) <> dump (fst r) /\ nth 5 (dump (fst r)) (0, (None, [])) = (5, (None, [2])).
Proof.
  exists [ONew 0 KCatalog None false; ONew 3 KField (Some 0) false; ONew 5 KCatalog None false; ONew 2 KField (Some 5) false].
  exists (fun a b => Nat.eqb a 2 && Nat.eqb b 3)%bool. split; [repeat constructor|]. split.
  - intros (y & Ey & Hin). vm_compute in Ey. injection Ey as <-. cbn in Hin. intuition discriminate.
  - cbn zeta. split_and!; [vm_compute; reflexivity|vm_compute; discriminate|vm_compute; reflexivity].
Qed.
(** insertInto always raises and changes nothing. *)
Theorem C11_insertInto_refuted : forall h self ins, exists e, insertInto self ins h = (h, Raise e).
Proof.
  intros h self ins. unfold insertInto. destruct (h !! ins) as [x|]; [|eauto]. destruct (n_parent x) as [p|]; [|eauto].
  destruct (h !! p) as [y|]; [|eauto]. destruct (n_kind y); eauto.
Qed.

(** ** C12: traversals *)
Theorem C12_visit : forall h n, reachable h -> is_Some (h !! n) ->
  exists tr, root tr = n /\ represents h tr /\ List.NoDup (preorder tr) /\ (forall m, In m (preorder tr) <-> within h n m) /\
    nnodes h (enough h) n = Some (length (preorder tr)) /\
    forall St V (f : St -> nat -> St * option V) t flt incl s l, order_of t incl tr = Some l ->
      visit h (enough h) f t flt incl n s = Ok (visited f flt s l).
Proof. intros h n H. apply visit_spec. now apply reachable_forest. Qed.
Print Assumptions C12_visit.

(** Every order visits the same nodes, each once; index 0 is preorder and any
    negative index is postorder. *)
Theorem C12_orders : forall tr k, Permutation (postorder tr) (preorder tr) /\ Permutation (inorder k tr) (preorder tr) /\
  Permutation (levelorder tr) (preorder tr) /\ inorder 0 tr = preorder tr /\ ((k < 0)%Z -> inorder k tr = postorder tr).
Proof.
  intros tr k. split_and!; [apply postorder_perm|apply inorder_perm|apply levelorder_perm|apply inorder_zero|apply inorder_neg].
Qed.
Print Assumptions C12_orders.

Definition ex_visit t incl := visit (run ∅ ex_ops) 10 (fun (s : list nat) n => (s ++ [n], Some n)) t FFalse incl 0 [].
Example C12_ex :
  ex_visit TPre true = Ok ([0; 1; 3; 2; 4], List.map Some [0; 1; 3; 2; 4]) /\
  ex_visit TPost true = Ok ([3; 2; 1; 4; 0], List.map Some [3; 2; 1; 4; 0]) /\
  ex_visit TLevel true = Ok ([0; 1; 4; 3; 2], List.map Some [0; 1; 4; 3; 2]) /\
  ex_visit (TInt 1) true = Ok ([3; 1; 2; 0; 4], List.map Some [3; 1; 2; 0; 4]).
Proof. vm_compute. auto. Qed.

(** Level order with includeself=False visits nothing at all. *)
Theorem C12_level_noself_refuted : forall h fuel St V (f : St -> nat -> St * option V) flt n s,
  visit h fuel f TLevel flt false n s = Ok (s, []).
Proof. intros. cbn. unfold out. destruct fuel; destruct flt; reflexivity. Qed.
(** A fractional position raises TypeError for every node. *)
Theorem C12_float_refuted : forall h fuel St V (f : St -> nat -> St * option V) flt incl n s,
  visit h fuel f TFloat flt incl n s = Raise TypeError.
Proof. reflexivity. Qed.
(** idstr does not identify a node: first children of different parents at the
    same depth share it. *)
Theorem C12_idstr_refuted : exists ops a b, Forall op_ok ops /\ a <> b /\
  is_Some (run ∅ ops !! a) /\ is_Some (run ∅ ops !! b) /\ idstr (run ∅ ops) a = idstr (run ∅ ops) b.
Proof.
  exists [ONew 0 KCatalog None false; ONew 1 KField (Some 0) false; ONew 2 KField (Some 0) false; ONew 3 KField (Some 1) false; ONew 4 KField (Some 2) false].
  exists 3, 4. split; [repeat constructor|]. split; [lia|].
  split_and!; [vm_compute; eauto|vm_compute; eauto|vm_compute; reflexivity].
Qed.
