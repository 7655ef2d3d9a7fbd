(** * DerivedProps: derived values are never stale (C47)

    Specification: [DerivedSpec.recompute], the value obtained from the observed values now stored in the
    fields, with no cache and no notification. *)
From Coq Require Import List ZArith Lia Bool Arith.
From Verif Require Import PyBase FieldModel FieldProofs DerivedModel DerivedSpec DerivedProofs.
Import ListNotations.

Section C47.
Context {A : Type}.
Variable fn : nat -> list A -> @res A.
Variable deps : nat -> list dep.
Variable locate : nat -> nat -> @res nat.
Variable N : nat.
Variable int_src : Z -> nat.
Hypothesis fn_fuel : forall d xs, fn d xs <> OutOfFuel.
Hypothesis locate_fuel : forall n x, locate n x <> OutOfFuel.
Variable pn : nat -> option nat.
Notation after ops := (@drun A fn deps locate N int_src (init deps N pn) ops).
Notation value d s := (snd (@read A fn deps locate N MRaise d s)).
Notation recompute := (@recompute A fn deps locate).

(** the specification is a partial function of the fields: looking deeper never changes an answer *)
Theorem C47_spec_unique : forall fl h h' d (v v' : A), recompute fl pn h d = Some v -> recompute fl pn h' d = Some v' -> v = v'.
Proof. intros. eapply recompute_det; eauto. Qed.

(** after any history of changes and reads, reading a DerivedValue returns [v] exactly when recomputing everything from what the fields now hold gives [v] *)
Theorem C47_never_stale : forall ops, Forall (dop_fine N) ops -> forall d, d < N -> forall v,
  value d (after ops) = Ok (Some v) <-> exists h, recompute (flds (after ops)) pn h d = Some v.
Proof.
  intros ops Ho d Hd v. destruct (drun_ok fn deps locate N int_src fn_fuel locate_fuel ops _ (init_ok fn deps locate N pn) Ho) as (HI & Hp). change (pnode (init deps N pn)) with pn in Hp. pose proof (read_spec fn deps locate N fn_fuel locate_fuel _ d HI Hd v) as K. rewrite Hp in K. exact K.
Qed.
(** it never hangs, never returns None, and otherwise raises; and a read changes no field *)
Theorem C47_total : forall ops, Forall (dop_fine N) ops -> forall d, d < N ->
  ((exists v, value d (after ops) = Ok (Some v)) \/ exists e, value d (after ops) = Raise e) /\ flds (fst (@read A fn deps locate N MRaise d (after ops))) = flds (after ops).
Proof.
  intros ops Ho d Hd. destruct (drun_ok fn deps locate N int_src fn_fuel locate_fuel ops _ (init_ok fn deps locate N pn) Ho) as (HI & _). destruct (read_frame fn deps locate N fn_fuel locate_fuel _ d HI Hd) as (E1 & _ & E3). split; [exact E3|exact E1].
Qed.
(** calling a field gives its current value, derived or observed *)
Theorem C47_call : forall ops, Forall (dop_fine N) ops -> forall f v,
  snd (@call A fn deps locate N MRaise f (after ops)) = Ok (Some v) <-> exists h, @curr A fn deps locate (flds (after ops)) pn h f = Some v.
Proof.
  intros ops Ho f v. destruct (drun_ok fn deps locate N int_src fn_fuel locate_fuel ops _ (init_ok fn deps locate N pn) Ho) as (HI & Hp). change (pnode (init deps N pn)) with pn in Hp. pose proof (call_spec fn deps locate N fn_fuel locate_fuel _ f HI v) as K. rewrite Hp in K. exact K.
Qed.
(** only the current contents of the fields matter, not how and when they were reached or read *)
Theorem C47_history_independent : forall ops ops', Forall (dop_fine N) ops -> Forall (dop_fine N) ops' -> (forall f, flds (after ops) f = flds (after ops') f) ->
  forall d, d < N -> forall v, value d (after ops) = Ok (Some v) <-> value d (after ops') = Ok (Some v).
Proof.
  intros ops ops' Ho Ho' Ef d Hd v. rewrite !C47_never_stale by auto.
  assert (forall fl fl' : nat -> list (@fval A), (forall f, fl f = fl' f) -> forall h d, recompute fl pn h d = recompute fl' pn h d) as K.
  { intros fl fl' E h. induction h as [|h IH]; intros e; [reflexivity|]. rewrite !recompute_S. destruct (all_some _) as [fs|]; [|reflexivity]. assert (map (@curr A fn deps locate fl pn h) fs = map (@curr A fn deps locate fl' pn h) fs) as ->; [|reflexivity]. apply map_ext. intros f. unfold curr. rewrite E. destruct (fl' f) as [|w l]; [reflexivity|]. destruct (v_der w); [apply IH|reflexivity]. }
  split; intros (h & Q); exists h; [rewrite <- (K _ _ Ef)|rewrite (K _ _ Ef)]; exact Q.
Qed.
(** reading again gives the same answer *)
Theorem C47_read_again : forall ops, Forall (dop_fine N) ops -> forall d e, d < N -> e < N -> forall v,
  value d (fst (@read A fn deps locate N MRaise e (after ops))) = Ok (Some v) <-> value d (after ops) = Ok (Some v).
Proof.
  intros ops Ho d e Hd He v. assert (fst (@read A fn deps locate N MRaise e (after ops)) = after (ops ++ [DRead e])) as -> by (unfold drun; rewrite fold_left_app; reflexivity).
  assert (Forall (dop_fine N) (ops ++ [DRead (A:=A) e])) as Ho' by (apply Forall_app; split; [auto|constructor; [exact He|constructor]]).
  apply C47_history_independent; auto. intros f. unfold drun. rewrite fold_left_app. cbn [fold_left dstep]. exact (f_equal (fun g => g f) (proj2 (C47_total ops Ho e He))).
Qed.
End C47.

(** ** A non-trivial history, and what falls outside the guards
    Field 0 and 1 hold numbers; DerivedValue 0 is their sum and sits in field 2; DerivedValue 1 is twice the field that the string "7" names at its node (field 2 at node 0, field 3 at node 1). *)
Definition xfn (d : nat) (l : list Z) : @res Z := match d, l with 0, [a; b] => Ok (a + b)%Z | 1, [a] => Ok (2 * a)%Z | _, _ => Raise TypeError end.
Definition xdeps (d : nat) : list dep := match d with 0 => [DField 0; DField 1] | 1 => [DName 7] | _ => [] end.
Definition xloc (n nm : nat) : @res nat := match n, nm with 0, 7 => Ok 2 | 1, 7 => Ok 3 | _, _ => Raise AttributeError end.
Definition xpn (d : nat) : option nat := Some 0.
Definition obs (s : nat) (x : Z) : @fval Z := {| v_src := s; v_val := x; v_errs := []; v_der := None |}.
Definition der (s d : nat) : @fval Z := {| v_src := s; v_val := 0%Z; v_errs := []; v_der := Some d |}.
Definition xint (z : Z) : nat := Z.to_nat z + 100.
Notation xafter ops := (drun xfn xdeps xloc 2 xint (init xdeps 2 xpn) ops).
Notation xvalue d s := (snd (read xfn xdeps xloc 2 MRaise d s)).
Definition xops : list (@dop Z) :=
  [DOp 0 (FAppend (IVal (obs 1 10))); DOp 1 (FAppend (IVal (obs 1 20))); DOp 2 (FCurr (CInp (IVal (der 50 0)))); DRead 1; DCall 2].
Example C47_instance :
  Forall (dop_fine 2) (xops ++ [DOp 0 (FCurr (CInp (IVal (obs 2 11)))); DRead 1; DOp 0 (FDel (KInt 0)); DOp 1 (FSet (fun _ => 0) (KSource 1) (RRaw 5%Z))]) /\
  xvalue 1 (xafter xops) = Ok (Some 60%Z) /\
  xvalue 1 (xafter (xops ++ [DOp 0 (FCurr (CInp (IVal (obs 2 11))))])) = Ok (Some 62%Z) /\
  xvalue 1 (xafter (xops ++ [DOp 0 (FCurr (CInp (IVal (obs 2 11)))); DRead 1; DOp 0 (FDel (KInt 0)); DOp 1 (FSet (fun _ => 0) (KSource 1) (RRaw 5%Z))])) = Ok (Some 30%Z) /\
  xvalue 1 (xafter (xops ++ [DOp 2 (FDel (KInt 0))])) = Raise IndexError.
Proof. split; [repeat (apply Forall_cons; [first [exact I|solve [cbn; lia]|split; [first [exact I|cbn; lia]|first [exact I|cbn; lia]]]|]); apply Forall_nil|]. repeat split; vm_compute; reflexivity. Qed.

(** pop() (whose default index is -1) on a field with a single value: the value is gone, the derived one is still returned *)
Theorem C47_pop_refuted : exists ops, xvalue 1 (xafter ops) = Ok (Some 60%Z) /\ forall h, recompute xfn xdeps xloc (flds (xafter ops)) xpn h 1 = None.
Proof.
  exists (xops ++ [DOp 0 (FPop (-1))]). split; [vm_compute; reflexivity|]. intros [|[|h]]; [vm_compute; reflexivity..|]. vm_compute. reflexivity.
Qed.
(** insert(-1, v) into a field with a single value makes v current, but the derived value is not recomputed *)
Theorem C47_insert_negative_refuted : exists ops, xvalue 0 (xafter ops) = Ok (Some 30%Z) /\ recompute xfn xdeps xloc (flds (xafter ops)) xpn 1 0 = Some 21%Z.
Proof. exists (xops ++ [DOp 0 (FInsert (KInt (-1)) (IVal (obs 2 1)))]). split; vm_compute; reflexivity. Qed.
(** moving a DerivedValue to a node (also when its field joins a node) loses its links to Field objects: reading it raises TypeError although everything is there *)
Theorem C47_set_node_refuted : exists ops, let s := set_pathnode xdeps (xafter ops) 0 (Some 1) in
  xvalue 0 s = Raise TypeError /\ recompute xfn xdeps xloc (flds s) (pnode s) 1 0 = Some 30%Z.
Proof. exists [DOp 0 (FAppend (IVal (obs 1 10))); DOp 1 (FAppend (IVal (obs 1 20)))]. cbv zeta. split; vm_compute; reflexivity. Qed.
(** and links given as strings keep designating the field of the old node *)
Theorem C47_set_node_string_refuted : exists ops, let s := set_pathnode xdeps (xafter ops) 1 (Some 1) in
  xvalue 1 s = Ok (Some 60%Z) /\ recompute xfn xdeps xloc (flds s) (pnode s) 1 1 = Some 14%Z.
Proof. exists (xops ++ [DOp 3 (FAppend (IVal (obs 1 7)))]). cbv zeta. split; vm_compute; reflexivity. Qed.
(** with failedvalueaction = 'ignore', a value read before its inputs exist stays None after they are assigned by key *)
Theorem C47_ignore_refuted : exists o1 o2, let s0 := fst (read xfn xdeps xloc 2 MIgnore 0 (init xdeps 2 xpn)) in let s := drun xfn xdeps xloc 2 xint s0 [o1; o2] in
  snd (read xfn xdeps xloc 2 MRaise 0 s) = Ok None /\ recompute xfn xdeps xloc (flds s) xpn 1 0 = Some 30%Z.
Proof. exists (DOp 0 (FSet (fun _ => 0) (KSource 1) (RRaw 10%Z))), (DOp 1 (FSet (fun _ => 0) (KSource 1) (RRaw 20%Z))). cbv zeta. split; vm_compute; reflexivity. Qed.
(** two DerivedValues that need each other raise; they do not loop *)
Example C47_cycle : let fnc := fun (d : nat) (l : list Z) => match l with [a] => Ok a | _ => Raise TypeError end in let dc := fun d => match d with 0 => [DField 1] | 1 => [DField 0] | _ => [] end in
  let s := drun fnc dc xloc 2 xint (init dc 2 xpn) [DOp 0 (FCurr (CInp (IVal (der 50 0)))); DOp 1 (FCurr (CInp (IVal (der 51 1))))] in
  snd (read fnc dc xloc 2 MRaise 0 s) = Raise CycleError.
Proof. vm_compute. reflexivity. Qed.
