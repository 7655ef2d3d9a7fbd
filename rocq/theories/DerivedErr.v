(** * DerivedErr: errors of observed and derived values (C48)
    (astropysics/objcat.py 1184-1189, 1926-1987, 2163-2190, 2237-2240)

    Reals stand for floats; values are scalars (with arrays, 2180-2184 write into the array stored in the
    field, whose contents are restored only up to rounding). *)
From Coq Require Import List Reals Lra Lia.
From Verif Require Import PyBase.
Import ListNotations.
Open Scope R_scope.

(** ObservedErroredValue.__init__ 1934-1941: the pair (_upperr, _lowerr) *)
Definition errored (up low : option R) : option R * option R := match up, low with None, Some l => (Some l, None) | _, _ => (up, low) end.
(** errors 1971-1984, hasSymmetricErrors 1986-1987 *)
Definition errors (o : option R * option R) : R * R := match o with (None, None) => (0, 0) | (Some u, None) => (u, u) | (None, Some l) => (0, l) | (Some u, Some l) => (u, l) end.
Definition hasSymmetricErrors (o : option R * option R) : Prop := fst o = snd o.

(** the loop of 2178-2184 from position [i] on; [xs] is depvals, [ds] the (upper, lower) errors still to be treated.
    Returns depvals and the two lists *)
Fixpoint propagate (f : list R -> R) (val : R) (i : nat) (ds : list (R * R)) (xs : list R) : list R * list R * list R :=
  match ds with
  | [] => (xs, [], [])
  | (u, l) :: ds =>
      let x1 := set_nth i (nth i xs 0 + u) xs in
      let ue := f x1 - val in
      let x2 := set_nth i (nth i x1 0 - (u + l)) x1 in
      let le := val - f x2 in
      let x3 := set_nth i (nth i x2 0 + l) x2 in
      let '(xs', us, ls) := propagate f val (S i) ds x3 in (xs', ue :: us, le :: ls)
  end.
Definition sumsq (l : list R) : R := fold_right (fun x s => x ^ 2 + s) 0 l.
Definition all_zero (ds : list (R * R * R)) : bool := forallb (fun d => if Req_EM_T (snd (fst d)) 0 then if Req_EM_T (snd d) 0 then true else false else false) ds.
(** value, 2163-2190, for a function given without errors ([_ferr] false); the arguments are (value, upper, lower) *)
Definition derive (f : list R -> R) (ds : list (R * R * R)) : R * (R * R) :=
  let xs := map (fun d => fst (fst d)) ds in
  let val := f xs in
  (val, if all_zero ds then (0, 0)
        else let '(_, us, ls) := propagate f val 0 (map (fun d => (snd (fst d), snd d)) ds) xs in (sqrt (sumsq us), sqrt (sumsq ls))).
(** with errors computed by the function itself ([_ferr] true, 2164-2167) *)
Definition derive_ferr (f : list (R * R * R) -> R * R * R) (ds : list (R * R * R)) : R * (R * R) := let r := f ds in (fst (fst r), (snd (fst r), snd r)).

(** ** Specification: argument number [i] moved by [e], the others untouched *)
Definition moved (xs : list R) (i : nat) (e : R) : list R := firstn i xs ++ (nth i xs 0 + e) :: skipn (S i) xs.
Fixpoint total (n : nat) (g : nat -> R) : R := match n with O => 0 | S n => total n g + g n end.
Definition values (ds : list (R * R * R)) := map (fun d => fst (fst d)) ds.
Definition up (ds : list (R * R * R)) i := snd (fst (nth i ds (0, 0, 0))).
Definition low (ds : list (R * R * R)) i := snd (nth i ds (0, 0, 0)).
(** a linear function with coefficients [a] *)
Fixpoint linear (c : R) (a xs : list R) : R := match a, xs with p :: a, x :: xs => p * x + linear c a xs | _, _ => c end.

Lemma total_ext n g h : (forall i, (i < n)%nat -> g i = h i) -> total n g = total n h.
Proof. induction n as [|n IH]; intros H; cbn [total]; [reflexivity|]. rewrite IH, H by auto with arith. reflexivity. Qed.
Lemma total_shift n g : total (S n) g = g 0%nat + total n (fun i => g (S i)).
Proof. induction n as [|n IH]; [cbn [total]; ring|]. change (total (S (S n)) g) with (total (S n) g + g (S n)). rewrite IH. cbn [total]. ring. Qed.
Lemma total_nonneg n g : (forall i, (i < n)%nat -> 0 <= g i) -> 0 <= total n g.
Proof. induction n as [|n IH]; intros H; cbn [total]; [lra|]. specialize (IH (fun i Hi => H i (Nat.lt_lt_succ_r _ _ Hi))). specialize (H n (Nat.lt_succ_diag_r n)). lra. Qed.
Lemma total_term n g k : (forall i, (i < n)%nat -> 0 <= g i) -> (k < n)%nat -> g k <= total n g.
Proof.
  induction n as [|n IH]; intros H Hk; [lia|]. cbn [total]. pose proof (total_nonneg n g (fun i Hi => H i (Nat.lt_lt_succ_r _ _ Hi))). pose proof (H n (Nat.lt_succ_diag_r n)).
  destruct (Nat.eq_dec k n) as [->|Ne]; [lra|]. specialize (IH (fun i Hi => H i (Nat.lt_lt_succ_r _ _ Hi))). assert (k < n)%nat as Hk' by lia. specialize (IH Hk'). lra.
Qed.
Lemma set_nth_moved xs i e : (i < length xs)%nat -> set_nth i (nth i xs 0 + e) xs = moved xs i e.
Proof. revert i. induction xs as [|x xs IH]; intros [|i] H; cbn [length] in H; try lia; [reflexivity|]. cbn [set_nth nth]. rewrite IH by lia. reflexivity. Qed.
Lemma nth_set_nth (xs : list R) i y : (i < length xs)%nat -> nth i (set_nth i y xs) 0 = y.
Proof. revert i. induction xs as [|x xs IH]; intros [|i] H; cbn [length] in H; try lia; [reflexivity|]. cbn [set_nth nth]. apply IH. lia. Qed.
Lemma set_set_nth (xs : list R) i y z : set_nth i z (set_nth i y xs) = set_nth i z xs.
Proof. revert i. induction xs as [|x xs IH]; intros [|i]; cbn [set_nth]; try reflexivity. now rewrite IH. Qed.
Lemma set_nth_same (xs : list R) i : set_nth i (nth i xs 0) xs = xs.
Proof. revert i. induction xs as [|x xs IH]; intros [|i]; cbn [set_nth nth]; try reflexivity. now rewrite IH. Qed.
Lemma propagate_spec f val ds : forall i xs, (i + length ds <= length xs)%nat -> propagate f val i ds xs =
  (xs, map (fun k => f (moved xs (i + k) (fst (nth k ds (0, 0)))) - val) (seq 0 (length ds)), map (fun k => val - f (moved xs (i + k) (- snd (nth k ds (0, 0))))) (seq 0 (length ds))).
Proof.
  induction ds as [|(u, l) ds IH]; intros i xs H; [reflexivity|]. cbn [length] in H. cbn [propagate]. rewrite !set_set_nth.
  assert (length (set_nth i (nth i xs 0 + u) xs) = length xs) as L1 by apply set_nth_length.
  rewrite (nth_set_nth xs i (nth i xs 0 + u)) by lia. rewrite (nth_set_nth xs) by lia. replace (nth i xs 0 + u - (u + l)) with (nth i xs 0 + - l) by ring. replace (nth i xs 0 + - l + l) with (nth i xs 0) by ring. rewrite set_nth_same, IH by lia.
  cbn [length seq map]. rewrite <- !seq_shift, !map_map. rewrite !Nat.add_0_r. cbn [nth fst snd]. rewrite !set_nth_moved by lia. f_equal; [f_equal|]; f_equal; apply map_ext; intros k; now rewrite Nat.add_succ_r.
Qed.
Lemma sumsq_total n (g : nat -> R) : sumsq (map g (seq 0 n)) = total n (fun i => (g i) ^ 2).
Proof.
  revert g. induction n as [|n IH]; intros g; [reflexivity|]. cbn [seq map]. unfold sumsq. cbn [fold_right]. fold (sumsq (map g (seq 1 n))). rewrite <- seq_shift, map_map, IH. symmetry. apply total_shift.
Qed.
Lemma all_zero_iff ds : all_zero ds = true <-> forall i, (i < length ds)%nat -> up ds i = 0 /\ low ds i = 0.
Proof.
  unfold all_zero. rewrite forallb_forall. split.
  - intros H i Hi. specialize (H (nth i ds (0, 0, 0)) (nth_In ds (0, 0, 0) Hi)). unfold up, low. destruct (Req_EM_T _ 0); [|discriminate]. destruct (Req_EM_T _ 0); [auto|discriminate].
  - intros H d Hd. destruct (In_nth ds d (0, 0, 0) Hd) as (i & Hi & E). destruct (H i Hi) as (A1 & A2). unfold up, low in *. rewrite E in *. destruct (Req_EM_T _ 0); [|contradiction]. destruct (Req_EM_T _ 0); [auto|contradiction].
Qed.
Lemma moved_zero xs i : (i < length xs)%nat -> moved xs i 0 = xs.
Proof. intros H. rewrite <- set_nth_moved, Rplus_0_r by auto. apply set_nth_same. Qed.

(** the errors are the quadratic sum of what each argument moved by its own error does, the others fixed; the value is the function of the values *)
Theorem C48_quadrature : forall f ds,
  fst (derive f ds) = f (values ds) /\
  fst (snd (derive f ds)) = sqrt (total (length ds) (fun i => (f (moved (values ds) i (up ds i)) - f (values ds)) ^ 2)) /\
  snd (snd (derive f ds)) = sqrt (total (length ds) (fun i => (f (values ds) - f (moved (values ds) i (- low ds i))) ^ 2)).
Proof.
  intros f ds. unfold derive. fold (values ds). cbn [fst snd]. split; [reflexivity|]. destruct (all_zero ds) eqn:Ez.
  - rewrite all_zero_iff in Ez. assert (length (values ds) = length ds) as Lv by apply map_length. cbn [fst snd].
    assert (forall g, (forall i, (i < length ds)%nat -> g i = 0) -> sqrt (total (length ds) g) = 0) as K. { intros g Hg. rewrite (total_ext _ g (fun _ => 0) Hg). assert (forall n, total n (fun _ => 0) = 0) as -> by (induction n as [|n IH]; cbn [total]; [reflexivity|rewrite IH; ring]). apply sqrt_0. }
    split; symmetry; apply K; intros i Hi; destruct (Ez i Hi) as (E1 & E2); [rewrite E1|rewrite E2, Ropp_0]; rewrite moved_zero by (rewrite Lv; auto); ring.
  - rewrite propagate_spec by (unfold values; rewrite !map_length; lia). cbn [fst snd]. rewrite !sumsq_total, !map_length. split; f_equal; apply total_ext; intros i Hi; cbn [Nat.add]; unfold up, low;
      change (0, 0) with ((fun d : R * R * R => (snd (fst d), snd d)) (0, 0, 0)); rewrite map_nth; reflexivity.
Qed.
Theorem C48_nonnegative : forall f ds, 0 <= fst (snd (derive f ds)) /\ 0 <= snd (snd (derive f ds)).
Proof. intros f ds. destruct (C48_quadrature f ds) as (_ & -> & ->). split; apply sqrt_pos. Qed.
(** each single effect is at most the error, for either sign of the derivative *)
Theorem C48_each_effect : forall f ds i, (i < length ds)%nat ->
  Rabs (f (moved (values ds) i (up ds i)) - f (values ds)) <= fst (snd (derive f ds)) /\ Rabs (f (values ds) - f (moved (values ds) i (- low ds i))) <= snd (snd (derive f ds)).
Proof.
  intros f ds i Hi. destruct (C48_quadrature f ds) as (_ & -> & ->).
  split; rewrite <- sqrt_Rsqr_abs; apply sqrt_le_1_alt; rewrite Rsqr_pow2; [apply (total_term (length ds) (fun i => (f (moved (values ds) i (up ds i)) - f (values ds)) ^ 2))|apply (total_term (length ds) (fun i => (f (values ds) - f (moved (values ds) i (- low ds i))) ^ 2))]; auto; intros k _; cbv beta; apply pow2_ge_0.
Qed.
(** exact inputs give an exact result *)
Theorem C48_exact : forall f ds, (forall i, (i < length ds)%nat -> up ds i = 0 /\ low ds i = 0) -> snd (derive f ds) = (0, 0).
Proof. intros f ds H. unfold derive. apply all_zero_iff in H. rewrite H. reflexivity. Qed.
Lemma linear_moved c a : forall xs i e, (i < length xs)%nat -> length a = length xs -> linear c a (moved xs i e) = linear c a xs + nth i a 0 * e.
Proof.
  induction a as [|p a IH]; intros [|x xs] i e Hi L; cbn [length] in *; try lia. destruct i as [|i]; [unfold moved; cbn [firstn skipn app nth linear]; ring|]. change (moved (x :: xs) (S i) e) with (x :: moved xs i e). cbn [linear nth]. rewrite IH by lia. ring.
Qed.
(** for a linear function, the usual formula *)
Theorem C48_linear : forall c a ds, length a = length ds ->
  snd (derive (linear c a) ds) = (sqrt (total (length ds) (fun i => (nth i a 0 * up ds i) ^ 2)), sqrt (total (length ds) (fun i => (nth i a 0 * low ds i) ^ 2))).
Proof.
  intros c a ds L. destruct (C48_quadrature (linear c a) ds) as (_ & E1 & E2). rewrite (surjective_pairing (snd (derive (linear c a) ds))). rewrite E1, E2. assert (length (values ds) = length ds) as Lv by apply map_length.
  apply (f_equal2 pair); f_equal; apply total_ext; intros i Hi; cbv beta; rewrite linear_moved by (rewrite ?Lv; auto; lia); ring.
Qed.
(** errors of an observed value: one given error counts both ways, none counts as zero, two are kept *)
Theorem C48_observed : forall e u l, errors (errored (Some e) None) = (e, e) /\ errors (errored None (Some e)) = (e, e) /\ errors (errored None None) = (0, 0) /\ errors (errored (Some u) (Some l)) = (u, l).
Proof. repeat split. Qed.
(** a function that computes its own errors is taken at its word *)
Theorem C48_own_errors : forall f ds v u l, f ds = (v, u, l) -> derive_ferr f ds = (v, (u, l)).
Proof. intros f ds v u l E. unfold derive_ferr. now rewrite E. Qed.
Example C48_instance : snd (derive (linear 0 [3; 2]) [(10, 1, 2); (20, 2, 1)]) = (5, sqrt 40).
Proof.
  rewrite C48_linear by reflexivity. cbn [length total nth up low fst snd]. unfold up, low. cbn [nth fst snd]. apply (f_equal2 pair); [|f_equal; ring]. replace (0 + (3 * 1) ^ 2 + (2 * 2) ^ 2) with (5 ^ 2) by ring. apply sqrt_pow2. lra.
Qed.
(** symmetric errors given as one number are reported as not symmetric *)
Theorem C48_symmetric_refuted : forall e, let o := errored (Some e) None in fst (errors o) = snd (errors o) /\ ~ hasSymmetricErrors o.
Proof. intros e o. split; [reflexivity|]. unfold hasSymmetricErrors, o. cbn. discriminate. Qed.
(** errors are treated as independent also when they are not: x - x computed from two derived copies of x has an error *)
Theorem C48_correlated_refuted : forall x u, 0 < u -> let d := derive (linear 0 [1]) [(x, u, u)] in
  let c := (fst d, fst (snd d), snd (snd d)) in fst (derive (linear 0 [1; -1]) [c; c]) = 0 /\ fst (snd (derive (linear 0 [1; -1]) [c; c])) = sqrt 2 * u.
Proof.
  intros x u Hu d c. assert (snd d = (u, u)) as E. { unfold d. rewrite C48_linear by reflexivity. cbn [length total nth]. unfold up, low. cbn [nth fst snd]. replace (0 + (1 * u) ^ 2) with (u ^ 2) by ring. rewrite sqrt_pow2 by lra. reflexivity. }
  split.
  - rewrite (proj1 (C48_quadrature (linear 0 [1; -1]) [c; c])). unfold values. cbn [map linear]. ring.
  - rewrite C48_linear by reflexivity. cbn [fst length total nth]. unfold up. cbn [nth fst snd]. unfold c. cbn [fst snd]. rewrite E. cbn [fst]. replace (0 + (1 * u) ^ 2 + (-1 * u) ^ 2) with (2 * u ^ 2) by ring. rewrite sqrt_mult_alt by lra. rewrite sqrt_pow2 by lra. reflexivity.
Qed.
