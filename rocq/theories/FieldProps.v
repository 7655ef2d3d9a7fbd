(** * FieldProps: C13, C14 *)
From Coq Require Import List ZArith Lia Bool.
From Verif Require Import PyBase FieldModel FieldProofs.
Import ListNotations.

(** Histories of item assignments, deletions, insertions (not at a Source key),
    append, pop, reverse and assignments to currentobj, from an empty field. *)
Definition reachable {V} (ty : @ftype V) (int_src : Z -> nat) (f : @field V) : Prop :=
  exists ops, Forall fop_ok ops /\ f = frun ty int_src empty_field ops.
(** all values except the one with source [s], in order *)
Definition except {V} (s : nat) (l : list (@fval V)) : list fval := filter (fun w => negb (Nat.eqb (v_src w) s)) l.
(** [k] is the name of source [s], or the Source itself, or None for the default *)
Definition names_source {V} (k : @key V) (s : nat) : Prop :=
  k = KSource s \/ (exists h, k = KName s h) \/ (k = KNone /\ s = 0).

Lemma reachable_unique {V} ty int_src (f : @field V) : reachable ty int_src f -> unique (vals f).
Proof. intros (ops & Ho & ->). apply frun_unique; auto. constructor. Qed.

(** ** C13 *)
Theorem C13_unique_sources : forall V (ty : @ftype V) int_src f, reachable ty int_src f -> NoDup (map v_src (vals f)).
Proof. intros V ty int_src f. apply reachable_unique. Qed.
Print Assumptions C13_unique_sources.

(** If float() yields values of type float, and currentobj is only assigned new
    values of the field's type, every value has the field's type. *)
Theorem C13_types : forall V (ty : @ftype V) int_src ops,
  (forall x y, t_float ty = true -> t_tofloat ty x = Some y -> t_ok ty y = true) ->
  Forall fop_ok ops ->
  Forall (fun o => forall a v, o = FCurr a -> convert (arg_inp a) = Ok v -> t_ok ty (v_val v) = true) ops ->
  Forall (fun v => t_ok ty (v_val v) = true) (vals (frun ty int_src empty_field ops)).
Proof.
  intros V ty int_src ops Hf Ho Ht. apply (frun_typed ty int_src Hf ops empty_field); auto.
  - rewrite Forall_forall in *. intros o Hin. specialize (Ht o Hin). destruct o; cbn; auto. intros v Hv. now apply (Ht a).
  - constructor.
  - constructor.
Qed.
Print Assumptions C13_types.

(** ** C14 *)
(** A call that raises leaves the values as they were. *)
Definition outcome {V} (ty : @ftype V) int_src (f : @field V) (o : fop) : @res unit :=
  match o with
  | FSet ds k r => snd (setitem ty int_src ds f k r)
  | FDel k => snd (delitem f k)
  | FInsert k i => snd (insert ty f k i)
  | FAppend i => snd (append ty f i)
  | FPop z => match snd (pop f z) with Ok _ => Ok tt | Raise e => Raise e | OutOfFuel => OutOfFuel end
  | FCurr a => snd (setCurr ty f a)
  | FReverse ds => snd (reverse ty int_src ds f)
  end.
Theorem C14_failures_change_nothing : forall V (ty : @ftype V) int_src f o, reachable ty int_src f ->
  outcome ty int_src f o <> Ok tt -> vals (fstep ty int_src f o) = vals f.
Proof.
  intros V ty int_src f o Hr. apply reachable_unique in Hr. destruct o as [ds k r|k|k i|i|z|a|ds]; cbn [outcome fstep].
  - destruct (setitem ty int_src ds f k r) as (f', res) eqn:E. apply setitem_cases in E. cbn [fst snd]. intros Hn.
    destruct E as [(-> & _)|(-> & _)]; auto. congruence.
  - destruct (delitem f k) as (f', r) eqn:E. apply delitem_cases in E; auto. cbn [fst snd]. intros Hn.
    destruct E as [(-> & _)|(-> & _)]; auto. congruence.
  - destruct (insert ty f k i) as (f', r) eqn:E. apply insert_cases in E. cbn [fst snd]. intros Hn.
    destruct E as [(-> & _)|(-> & _)]; auto. congruence.
  - destruct (append ty f i) as (f', r) eqn:E. apply append_cases in E. cbn [fst snd]. intros Hn.
    destruct E as [(-> & _)|(-> & _)]; auto. congruence.
  - destruct (pop f z) as (f', r) eqn:E. apply pop_cases in E; auto. cbn [fst snd]. intros Hn.
    destruct E as [(-> & _)|(v & -> & _)]; auto. congruence.
  - destruct (setCurr ty f a) as (f', r) eqn:E. apply setCurr_cases in E; auto. cbn [fst snd]. intros Hn.
    destruct E as [(-> & _)|(-> & _)]; auto. congruence.
  - intros _. destruct (Nat.lt_ge_cases (length (vals f)) 2); [now rewrite reverse_small|now rewrite reverse_raises].
Qed.
Print Assumptions C14_failures_change_nothing.

(** Reading by source: the one value with that source, KeyError if there is none. *)
Theorem C14_lookup : forall V (ty : @ftype V) int_src f k s, reachable ty int_src f -> names_source k s ->
  (forall v, In v (vals f) -> v_src v = s -> exists i, getitem f k = Ok i /\ nth_error (vals f) i = Some v) /\
  ((forall v, In v (vals f) -> v_src v <> s) -> getitem f k = Raise KeyError).
Proof.
  intros V ty int_src f k s Hr Hk. apply reachable_unique in Hr.
  assert (Hg : getitem f k = get_src f s) by (destruct Hk as [->|[(h & ->)|(-> & ->)]]; reflexivity).
  rewrite Hg. unfold get_src. split.
  - intros v Hin Es. destruct (In_nth_error _ _ Hin) as (i & Ei). rewrite (find_src_iff s (vals f) i v); eauto.
  - intros Hn. assert (find_src s (vals f) = None) as ->; auto. apply find_src_none. intros Hin.
    apply in_map_iff in Hin. destruct Hin as (v & E & Hv). now apply (Hn v).
Qed.
Print Assumptions C14_lookup.

(** Reading currentobj gives the first value. *)
Theorem C14_current : forall V (f : @field V),
  (forall v, nth_error (vals f) 0 = Some v -> getCurr f = Ok v) /\ (vals f = [] -> getCurr f = Raise IndexError).
Proof. intros V f. unfold getCurr. split; [intros v; destruct (vals f); cbn; congruence|intros ->; reflexivity]. Qed.

(** Assigning currentobj an index, source or source name of a stored value moves
    that value to the front; assigning a new value puts it in front and removes
    the previous value of the same source (a DerivedValue that already belongs to
    a field is rejected).  The order of the others is kept. *)
Theorem C14_set_current : forall V (ty : @ftype V) int_src f, reachable ty int_src f ->
  (forall k i v, getitem f k = Ok i -> nth_error (vals f) i = Some v ->
     exists f', setCurr ty f (CKey k) = (f', Ok tt) /\ vals f' = v :: except (v_src v) (vals f)) /\
  (forall i v, convert i = Ok v ->
     (match v_der v with Some d => In d (owned f) | None => False end -> setCurr ty f (CInp i) = (f, Raise ValueError)) /\
     (match v_der v with Some d => ~ In d (owned f) | None => True end ->
        exists f', setCurr ty f (CInp i) = (f', Ok tt) /\ vals f' = v :: except (v_src v) (vals f))).
Proof.
  intros V ty int_src f Hr. apply reachable_unique in Hr. split.
  - intros k i v E Ev. destruct (setCurr ty f (CKey k)) as (f', r) eqn:Es. pose proof Es as Es0.
    apply setCurr_cases in Es; auto. unfold setCurr in Es0. cbn [arg_key] in Es0. rewrite E, Ev in Es0.
    injection Es0 as <- <-. eexists. split; [reflexivity|]. cbn [with_vals vals]. f_equal. now apply without_remove.
  - intros i v Hc. assert (Hch : checkConvInVal ty f i SCFalse =
      match v_der v with None => (f, Ok v)
      | Some d => if existsb (Nat.eqb d) (owned f) then (f, Raise ValueError) else ({| vals := vals f; owned := d :: owned f |}, Ok v) end).
    { unfold checkConvInVal. rewrite Hc. reflexivity. }
    split.
    + intros Hd. unfold setCurr. cbn [arg_key getitem arg_inp]. rewrite Hch. destruct (v_der v) as [d|]; [|destruct Hd].
      assert (existsb (Nat.eqb d) (owned f) = true) as ->; [|reflexivity].
      apply existsb_exists. exists d. split; auto. apply Nat.eqb_refl.
    + intros Hd. destruct (setCurr ty f (CInp i)) as (f', r) eqn:Es. pose proof Es as Es0. apply setCurr_cases in Es; auto.
      cbn [arg_key arg_inp getitem] in Es.
      destruct Es as [(_ & e & ->)|(-> & w & E & [(j & Ej & _)|(_ & Ew)])].
      * exfalso. unfold setCurr in Es0. cbn [arg_key getitem arg_inp] in Es0. rewrite Hch in Es0.
        destruct (v_der v) as [d|]; [|discriminate]. destruct (existsb (Nat.eqb d) (owned f)) eqn:Ex; [|discriminate].
        apply existsb_exists in Ex. destruct Ex as (x & Hx & E). apply Nat.eqb_eq in E. now subst.
      * discriminate.
      * exists f'. replace v with w by congruence. auto.
Qed.
Print Assumptions C14_set_current.

(** [field[source] = value] where [value] is no FieldValue or a FieldValue of
    that source: replaces exactly that source's value in its place, or appends a
    new one; what is stored is then read back under that source. *)
Theorem C14_assign : forall V (ty : @ftype V) int_src ds f k s r f', reachable ty int_src f -> names_source k s ->
  match r with RVal w => v_src w = s | _ => True end ->
  setitem ty int_src ds f k r = (f', Ok tt) ->
  exists v, v_src v = s /\
    (In s (map v_src (vals f)) -> vals f' = map (fun w => if Nat.eqb (v_src w) s then v else w) (vals f)) /\
    (~ In s (map v_src (vals f)) -> vals f' = vals f ++ [v] ) /\
    (match r with
     | RVal w => t_ok ty (v_val w) = true -> forallb (t_ok ty) (v_errs w) = true -> v = w
     | RRaw x => t_ok ty x = true -> v = {| v_src := s; v_val := x; v_errs := []; v_der := None |}
     | RErr x es => t_ok ty x = true -> forallb (t_ok ty) es = true -> v = {| v_src := s; v_val := x; v_errs := es; v_der := None |}
     | RErrBad => False
     end) /\
    (exists i, getitem f' k = Ok i /\ nth_error (vals f') i = Some v).
Proof.
  intros V ty int_src ds f k s r f' Hr Hk Hrs E. pose proof Hr as Hr0. apply reachable_unique in Hr.
  assert (Hu' : unique (vals f')).
  { pose proof (fstep_unique ty int_src f (FSet ds k r) I Hr) as H. cbn [fstep] in H. now rewrite E in H. }
  assert (Hg : forall g, getitem g k = get_src g s) by (intros g; destruct Hk as [->|[(h & ->)|(-> & ->)]]; reflexivity).
  assert (Hks : match k with KDerived _ | KDerivedBad => ds k | _ => key_src int_src k end = s)
    by (destruct Hk as [->|[(h & ->)|(-> & ->)]]; reflexivity).
  apply setitem_cases in E. rewrite Hks, Hg in E.
  destruct E as [(_ & e & Ee)|(_ & v & Hc & w & Hw & Es & Ht)]; [discriminate|].
  assert (Hvs : v_src v = s).
  { rewrite Es. destruct r as [u|x|x es|]; cbn [pair_with convert] in Hw; try discriminate; injection Hw as <-; auto. }
  assert (Hin : In v (vals f') /\ (In s (map v_src (vals f)) -> vals f' = map (fun w => if Nat.eqb (v_src w) s then v else w) (vals f)) /\
    (~ In s (map v_src (vals f)) -> vals f' = vals f ++ [v])).
  { unfold get_src in Hc. destruct (find_src s (vals f)) as [j|] eqn:Ej.
    - destruct Hc as [(i & old & Ei & Eo & E1 & E2)|([?|?] & _)]; [|discriminate..]. injection Ei as <-. split; [|split].
      + rewrite E2. eapply nth_error_In. apply nth_error_set_nth_eq. apply nth_error_Some. congruence.
      + intros _. rewrite E2, <- Hvs. apply set_nth_map; auto. exists old. auto.
      + intros Hn. apply find_src_none in Hn. congruence.
    - destruct Hc as [(i & old & Ei & _)|(_ & _ & Hn & E2)]; [discriminate|]. split; [|split].
      + rewrite E2. apply in_or_app. right. now left.
      + intros Hi. exfalso. apply Hn. now rewrite Hvs.
      + auto. }
  destruct Hin as (Hin & H1 & H2). exists v. split; [exact Hvs|]. split; [exact H1|]. split; [exact H2|]. split.
  - assert (Hid : forall u, t_ok ty (v_val u) = true -> forallb (t_ok ty) (v_errs u) = true -> check_conv_type ty u = Ok u).
    { intros u A B. unfold check_conv_type. now rewrite A, B. }
    destruct r as [u|x|x es|]; cbn [pair_with convert] in Hw; [injection Hw as <-..|discriminate].
    + intros A B. rewrite Hid in Ht by auto. congruence.
    + intros A. rewrite Hid in Ht by auto. congruence.
    + intros A B. rewrite Hid in Ht by auto. congruence.
  - rewrite Hg. unfold get_src. destruct (In_nth_error _ _ Hin) as (i & Ei). rewrite (find_src_iff s (vals f') i v); eauto.
Qed.
Print Assumptions C14_assign.

(** It succeeds for every value of the field's type. *)
Theorem C14_assign_succeeds : forall V (ty : @ftype V) int_src ds f k s x, reachable ty int_src f -> names_source k s ->
  t_ok ty x = true -> exists f', setitem ty int_src ds f k (RRaw x) = (f', Ok tt).
Proof.
  intros V ty int_src ds f k s x Hr Hk Hx.
  assert (Hg : getitem f k = get_src f s) by (destruct Hk as [->|[(h & ->)|(-> & ->)]]; reflexivity).
  assert (Hks : match k with KDerived _ | KDerivedBad => ds k | _ => key_src int_src k end = s)
    by (destruct Hk as [->|[(h & ->)|(-> & ->)]]; reflexivity).
  assert (Hint : match k with KInt _ => true | _ => false end = false) by (destruct Hk as [->|[(h & ->)|(-> & ->)]]; reflexivity).
  unfold setitem. rewrite Hks, Hint. cbn zeta. unfold contains. rewrite Hg. unfold get_src.
  destruct (find_src s (vals f)) as [j|] eqn:Ej.
  - destruct (find_src_some _ _ _ Ej) as (v & -> & Es). unfold checkConvInVal. cbn [pair_with convert v_src].
    rewrite Es, Nat.eqb_refl. unfold check_conv_type. cbn [v_val v_errs v_der forallb]. rewrite Hx. cbn. eauto.
  - unfold checkConvInVal. cbn [pair_with convert v_src]. rewrite Ej.
    unfold check_conv_type. cbn [v_val v_errs v_der forallb]. rewrite Hx. cbn. eauto.
Qed.
Print Assumptions C14_assign_succeeds.

(** [del field[key]] removes exactly the value [field[key]]. *)
Theorem C14_delete : forall V (ty : @ftype V) int_src f k, reachable ty int_src f ->
  (forall i v, getitem f k = Ok i -> nth_error (vals f) i = Some v ->
     exists f', delitem f k = (f', Ok tt) /\ vals f' = except (v_src v) (vals f)) /\
  (forall e, getitem f k = Raise e -> delitem f k = (f, Raise e)).
Proof.
  intros V ty int_src f k Hr. apply reachable_unique in Hr. split.
  - intros i v E Ev. unfold delitem. rewrite E. eexists. split; [reflexivity|]. cbn [with_vals vals]. now apply without_remove.
  - intros e E. unfold delitem. now rewrite E.
Qed.
Print Assumptions C14_delete.

(** Inserting at an index in 0..n puts the (new source's) value exactly there. *)
Theorem C14_insert : forall V (ty : @ftype V) int_src f (n : nat) i w, reachable ty int_src f -> n <= length (vals f) ->
  convert i = Ok w -> t_ok ty (v_val w) = true -> forallb (t_ok ty) (v_errs w) = true ->
  match v_der w with Some d => ~ In d (owned f) | None => True end ->
  (In (v_src w) (map v_src (vals f)) -> insert ty f (KInt (Z.of_nat n)) i = (f, Raise ValueError)) /\
  (~ In (v_src w) (map v_src (vals f)) ->
     exists f', insert ty f (KInt (Z.of_nat n)) i = (f', Ok tt) /\ vals f' = firstn n (vals f) ++ w :: skipn n (vals f)).
Proof.
  intros V ty int_src f n i w Hr Hn Hc Hx He Hd. unfold insert, checkConvInVal. rewrite Hc. cbn zeta. split.
  - intros Hin. destruct (find_src (v_src w) (vals f)) eqn:E; [reflexivity|]. apply find_src_none in E. contradiction.
  - intros Hin. apply find_src_none in Hin. rewrite Hin. unfold check_conv_type. rewrite Hx, He. cbn [andb].
    destruct (v_der w) as [d|].
    + destruct (existsb (Nat.eqb d) (owned f)) eqn:Ex.
      * apply existsb_exists in Ex. destruct Ex as (y & Hy & E). apply Nat.eqb_eq in E. now subst.
      * eexists. split; [reflexivity|]. cbn [with_vals vals]. unfold py_insert. rewrite py_insert_pos_nonneg by auto. reflexivity.
    + eexists. split; [reflexivity|]. cbn [with_vals vals]. unfold py_insert. rewrite py_insert_pos_nonneg by auto. reflexivity.
Qed.
Print Assumptions C14_insert.

(** ** A concrete field of type int (values are integers, odd ones "not ints") *)
Definition tyx : @ftype Z := {| t_ok := Z.even; t_float := false; t_tofloat := fun _ => None |}.
Definition isx : Z -> nat := fun z => 1000 + Z.to_nat z.
Definition dsx : @key Z -> nat := fun _ => 999.
Definition opsx : list (@fop Z) :=
  [FSet dsx (KName 1 None) (RRaw 10%Z); FSet dsx (KSource 2) (RErr 20 [2; 4])%Z; FSet dsx (KName 3 None) (RRaw 7%Z) (* TypeError *);
   FSet dsx KNone (RRaw 0%Z); FCurr (CKey (KName 2 None)); FCurr (CInp (IPair 1 12%Z)); FSet dsx (KName 2 None) (RRaw 22%Z);
   FDel KNone; FDel (KInt 5) (* IndexError *); FAppend (IPair 2 6%Z) (* ValueError *); FInsert (KInt 1) (IPair 4 40%Z)].
Example C14_ex : Forall fop_ok opsx /\
  map (fun v => (v_src v, v_val v)) (vals (frun tyx isx empty_field opsx)) = [(1, 12%Z); (4, 40%Z); (2, 22%Z)].
Proof. split; [repeat constructor|reflexivity]. Qed.

(** ** Findings *)
(** [field.insert(source, value)] with a Source already present adds a second
    value of that source. *)
Theorem C13_insert_source_refuted : exists f i f', reachable tyx isx f /\ insert tyx f (KSource 1) i = (f', Ok tt) /\
  ~ NoDup (map v_src (vals f')).
Proof.
  exists (frun tyx isx empty_field [FSet dsx (KName 1 None) (RRaw 10%Z)]), (IPair 1 20%Z). eexists. split; [|split].
  - eexists. split; [|reflexivity]. repeat constructor.
  - reflexivity.
  - cbn. intros H. inversion H as [|? ? H1 _]. apply H1. now left.
Qed.
(** currentobj accepts a new value of the wrong type. *)
Theorem C13_currentobj_type_refuted : exists f', setCurr tyx empty_field (CInp (IPair 1 7%Z)) = (f', Ok tt) /\
  exists v, In v (vals f') /\ t_ok tyx (v_val v) = false.
Proof. eexists. split; [reflexivity|]. eexists. split; [now left|reflexivity]. Qed.
(** Assigning the name of a missing source to currentobj raises TypeError unless
    the name has two characters: then a value is made up from them. *)
Theorem C14_two_character_name_refuted : forall V (ty : @ftype V) s a x,
  (exists f', setCurr ty empty_field (CKey (KName s (Some (a, x)))) = (f', Ok tt) /\
    vals f' = [{| v_src := a; v_val := x; v_errs := []; v_der := None |}]) /\
  setCurr ty empty_field (CKey (KName s None)) = (empty_field, Raise TypeError).
Proof. intros. split; [eexists; split; reflexivity|reflexivity]. Qed.
(** [field[i] = x] for a plain value raises ValueError (unless the source is
    named by the number i). *)
Theorem C14_index_assignment_refuted : forall V (ty : @ftype V) int_src ds f z i v x, getitem f (KInt z) = Ok i ->
  nth_error (vals f) i = Some v -> v_src v <> int_src z -> setitem ty int_src ds f (KInt z) (RRaw x) = (f, Raise ValueError).
Proof.
  intros V ty int_src ds f z i v x E Ev Hn. unfold setitem. cbn zeta. unfold contains. rewrite E, Ev.
  unfold checkConvInVal. cbn [pair_with convert key_src v_src]. destruct (Nat.eqb_spec (int_src z) (v_src v)); [congruence|reflexivity].
Qed.
(** [field[s] = value] with a missing source s and a FieldValue of another new
    source stores it under that other source. *)
Theorem C14_assign_other_source_refuted : exists f', setitem tyx isx dsx empty_field (KName 1 None)
    (RVal {| v_src := 2; v_val := 4%Z; v_errs := []; v_der := None |}) = (f', Ok tt) /\
  getitem f' (KName 1 None) = Raise KeyError.
Proof. eexists. split; reflexivity. Qed.
(** reverse() raises for every field with at least two values. *)
Theorem C14_reverse_refuted : forall V (ty : @ftype V) int_src ds f, reachable ty int_src f -> 2 <= length (vals f) ->
  reverse ty int_src ds f = (f, Raise ValueError).
Proof. intros V ty int_src ds f Hr. apply reverse_raises. now apply reachable_unique in Hr. Qed.
(** A DerivedValue deleted from a field can never be put back. *)
Theorem C14_derived_lost_refuted : exists f1 f2 d, 
  setitem tyx isx dsx empty_field (KName 5 None) (RVal d) = (f1, Ok tt) /\ delitem f1 (KSource (v_src d)) = (f2, Ok tt) /\
  vals f2 = [] /\ append tyx f2 (IVal d) = (f2, Raise ValueError) /\ setCurr tyx f2 (CInp (IVal d)) = (f2, Raise ValueError).
Proof.
  do 2 eexists. exists {| v_src := 5; v_val := 4%Z; v_errs := []; v_der := Some 7 |}.
  split; [reflexivity|]. split; [reflexivity|]. split; [reflexivity|]. split; reflexivity.
Qed.
