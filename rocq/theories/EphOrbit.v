(** * EphOrbit: the orbits of Keplerian objects (C73) *)
From Coq Require Import List Bool ZArith Reals Lra Lia Psatz.
From Coquelicot Require Import Coquelicot.
From Verif Require Import PyBase RealTrig EphModel EphKepler.
Import ListNotations.
Open Scope R_scope.

(** ** where an object is *)
Definition norm2 (p : R * R * R) : R := let '(x, y, z) := p in x ^ 2 + y ^ 2 + z ^ 2.
Definition sub3 (p q : R * R * R) : R * R * R := let '(x, y, z) := p in let '(x', y', z') := q in (x - x', y - y', z - z').
Definition scale3 (c : R) (p : R * R * R) : R * R * R := let '(x, y, z) := p in (c * x, c * y, c * z).
Definition dot3 (p q : R * R * R) : R := let '(x, y, z) := p in let '(x', y', z') := q in x * x' + y * y' + z * z'.
Definition cross3 (p q : R * R * R) : R * R * R := let '(x, y, z) := p in let '(x', y', z') := q in (y * z' - z * y', z * x' - x * z', x * y' - y * x').
(** the direction at the angle u from the ascending node in an orbit of inclination i whose node is at longitude o *)
Definition on_orbit (u o i : R) : R * R * R := (cos o * cos u - sin o * sin u * cos i, sin o * cos u + cos o * sin u * cos i, sin u * sin i).
Definition normal (o i : R) : R * R * R := (sin o * sin i, - cos o * sin i, cos i).
Lemma dist_eq a e E : 0 <= e < 1 -> dist a e E = a * (1 - e * cos (rad E)).
Proof.
  intros H. unfold dist. destruct (nu_polar e E H) as [A _]. set (c := cos (rad E)) in *. set (n := cos (rad (nu e E))) in *. pose proof (one_minus e (rad E) H) as O. fold c in O.
  assert (N : n = (c - e) / (1 - e * c)) by (rewrite A; field; lra). rewrite N. assert (D : 1 + e * ((c - e) / (1 - e * c)) = (1 - e * e) / (1 - e * c)) by (field; lra). rewrite D. field. split; [lra|nra].
Qed.
(** the place of the object: at the distance d, at the true anomaly from the pericenter, in the plane of the orbit *)
Theorem C73_place : forall a e E ap Lan i, 0 <= e < 1 -> place a e E ap Lan i = scale3 (dist a e E) (on_orbit (rad ap + rad (nu e E)) (rad Lan) (rad i)).
Proof.
  intros a e E ap Lan i H. destruct (nu_polar e E H) as [A B]. unfold place, scale3, on_orbit. rewrite dist_eq by trivial. set (w := rad ap). set (n := rad (nu e E)) in *. rewrite sin_plus, cos_plus.
  replace (a * (cos (rad E) - e)) with (a * (1 - e * cos (rad E)) * cos n) by (rewrite A; ring). replace (a * sqrt (1 - e * e) * sin (rad E)) with (a * (1 - e * cos (rad E)) * sin n) by (rewrite (Rmult_assoc a (sqrt _)), B; ring).
  f_equal; [f_equal|]; ring.
Qed.
Lemma sc2 x : sin x * sin x = 1 - cos x * cos x.
Proof. pose proof (sin2_cos2 x) as Q. unfold Rsqr in Q. lra. Qed.
Lemma on_orbit_unit u o i : norm2 (on_orbit u o i) = 1.
Proof.
  unfold norm2, on_orbit. pose proof (sc2 u). pose proof (sc2 o). pose proof (sc2 i). set (a := sin u) in *. set (b := cos u) in *. set (c := sin o) in *. set (d := cos o) in *. set (s := sin i) in *. set (t := cos i) in *.
  replace ((d * b - c * a * t) ^ 2 + (c * b + d * a * t) ^ 2 + (a * s) ^ 2) with ((c * c + d * d) * (b * b) + (c * c + d * d) * (a * a) * (t * t) + a * a * (s * s)) by ring. rewrite H0, H1. replace (1 - d * d + d * d) with 1 by ring. rewrite H. ring.
Qed.
Lemma norm_scale c p : norm2 (scale3 c p) = c ^ 2 * norm2 p.
Proof. destruct p as [[x y] z]. unfold norm2, scale3. ring. Qed.
(** the distance from the focus: the length of the place, between pericenter and apocenter, which are reached; always in the plane *)
Theorem C73_distance : forall a e E ap Lan i, 0 < a -> 0 <= e < 1 ->
  sqrt (norm2 (place a e E ap Lan i)) = dist a e E /\ dperi a e <= dist a e E <= dapo a e /\ dist a e 0 = dperi a e /\ dist a e 180 = dapo a e /\ dot3 (place a e E ap Lan i) (normal (rad Lan) (rad i)) = 0 /\
  (e > 0 -> (dist a e E = dperi a e <-> cos (rad E) = 1) /\ (dist a e E = dapo a e <-> cos (rad E) = -1)).
Proof.
  intros a e E ap Lan i A H. pose proof (one_minus e (rad E) H) as O. pose proof (COS_bound (rad E)) as Cb. rewrite (C73_place a e E ap Lan i H). rewrite norm_scale, on_orbit_unit, Rmult_1_r. rewrite !dist_eq by trivial. split; [|split; [|split; [|split; [|split]]]].
  - replace ((a * (1 - e * cos (rad E))) ^ 2) with ((a * (1 - e * cos (rad E))) * (a * (1 - e * cos (rad E)))) by ring. apply sqrt_square. nra.
  - unfold dperi, dapo. split; apply Rmult_le_compat_l; nra.
  - unfold dperi. replace (rad 0) with 0 by (unfold rad; field). rewrite cos_0. ring.
  - unfold dapo. replace (rad 180) with PI by (unfold rad; field). rewrite cos_PI. ring.
  - unfold dot3, scale3, on_orbit, normal. pose proof (sc2 (rad Lan)) as S. set (u := _ + rad (nu e E)). set (c := a * _). set (o := rad Lan) in *. replace (c * (cos o * cos u - sin o * sin u * cos (rad i)) * (sin o * sin (rad i)) + c * (sin o * cos u + cos o * sin u * cos (rad i)) * (- cos o * sin (rad i)) + c * (sin u * sin (rad i)) * cos (rad i)) with (c * sin u * sin (rad i) * cos (rad i) * (1 - sin o * sin o - cos o * cos o)) by ring. rewrite S. ring.
  - intros P. unfold dperi, dapo. split; split; intros Q.
    + apply Rmult_eq_reg_l in Q; [nra|lra].
    + rewrite Q. ring.
    + apply Rmult_eq_reg_l in Q; [nra|lra].
    + rewrite Q. ring.
Qed.
(** an ellipse: the distances from the two foci add up to the major axis *)
Definition empty_focus (a e ap Lan i : R) : R * R * R := scale3 (2 * a * e) (on_orbit (rad ap + PI) (rad Lan) (rad i)).
Lemma on_orbit_dot u v o i : dot3 (on_orbit u o i) (on_orbit v o i) = cos (u - v).
Proof.
  unfold dot3, on_orbit. rewrite cos_minus. pose proof (sc2 o). pose proof (sc2 i). replace ((cos o * cos u - sin o * sin u * cos i) * (cos o * cos v - sin o * sin v * cos i) + (sin o * cos u + cos o * sin u * cos i) * (sin o * cos v + cos o * sin v * cos i) + sin u * sin i * (sin v * sin i)) with ((sin o * sin o + cos o * cos o) * (cos u * cos v + sin u * sin v * (cos i * cos i)) + sin u * sin v * (sin i * sin i)) by ring. rewrite H, H0. ring.
Qed.
Lemma norm_sub p q : norm2 (sub3 p q) = norm2 p + norm2 q - 2 * dot3 p q.
Proof. destruct p as [[x y] z], q as [[x' y'] z']. unfold norm2, sub3, dot3. ring. Qed.
Lemma dot_scale c d p q : dot3 (scale3 c p) (scale3 d q) = c * d * dot3 p q.
Proof. destruct p as [[x y] z], q as [[x' y'] z']. unfold scale3, dot3. ring. Qed.
Theorem C73_ellipse : forall a e E ap Lan i, 0 < a -> 0 <= e < 1 -> let p := place a e E ap Lan i in sqrt (norm2 p) + sqrt (norm2 (sub3 p (empty_focus a e ap Lan i))) = 2 * a.
Proof.
  intros a e E ap Lan i A H p. destruct (C73_distance a e E ap Lan i A H) as (D & _). unfold p. rewrite D. clear D. pose proof (COS_bound (rad E)) as Cb. assert (Q : norm2 (sub3 (place a e E ap Lan i) (empty_focus a e ap Lan i)) = (a * (1 + e * cos (rad E))) * (a * (1 + e * cos (rad E)))).
  { rewrite C73_place by trivial. unfold empty_focus. rewrite norm_sub, !norm_scale, !on_orbit_unit, dot_scale, on_orbit_dot. replace (rad ap + rad (nu e E) - (rad ap + PI)) with (- (PI - rad (nu e E))) by ring. rewrite cos_neg, Rtrigo_facts.cos_pi_minus. destruct (nu_polar e E H) as [B _]. rewrite dist_eq by trivial.
    replace (2 * (a * (1 - e * cos (rad E)) * (2 * a * e) * - cos (rad (nu e E)))) with (- (4 * a * a * e) * ((1 - e * cos (rad E)) * cos (rad (nu e E)))) by ring. rewrite <- B. ring. }
  rewrite Q, sqrt_square by (apply Rmult_le_pos; nra). rewrite dist_eq by trivial. ring.
Qed.

(** ** how it moves *)
Lemma kepler_deriv e E : derivable_pt_lim (kepler e) E (1 - e * cos E).
Proof. unfold kepler. apply is_derive_Reals. auto_derive; [trivial|]. ring. Qed.
Lemma anomaly_deriv e n M0 (E : R -> R) t : 0 <= e < 1 -> (forall t, E t - e * sin (E t) = M0 + n * t) -> is_derive E t (n / (1 - e * cos (E t))).
Proof.
  intros H K. apply is_derive_Reals. pose proof (one_minus e (E t) H) as O. set (c := 1 - e * cos (E t)) in *. intros eps Eps.
  assert (An : 0 < Rabs n + 1) by (pose proof (Rabs_pos n); lra). set (ep := eps * (1 - e) * c / (Rabs n + 1)). assert (Ep : 0 < ep) by (unfold ep; repeat first [apply Rdiv_lt_0_compat|apply Rmult_lt_0_compat]; lra).
  destruct (kepler_deriv e (E t) ep Ep) as [d Dd]. assert (Pd : 0 < d * (1 - e) / (Rabs n + 1)) by (repeat first [apply Rdiv_lt_0_compat|apply Rmult_lt_0_compat]; try lra; apply cond_pos).
  exists (mkposreal _ Pd). intros h Nh Lh. cbn [pos] in Lh. set (k := E (t + h) - E t). assert (KE : kepler e (E t + k) - kepler e (E t) = n * h). { replace (E t + k) with (E (t + h)) by (unfold k; ring). unfold kepler. rewrite !K. ring. }
  assert (LK : (1 - e) * Rabs k <= Rabs n * Rabs h). { pose proof (kepler_expand e (E t + k) (E t) H) as Q. rewrite KE, Rabs_mult in Q. replace (E t + k - E t) with k in Q by ring. exact Q. }
  assert (Ph : 0 < Rabs h) by now apply Rabs_pos_lt.
  destruct (Req_dec k 0) as [Z|Z].
  - rewrite Z in KE. rewrite Rplus_0_r, Rminus_diag_eq in KE by reflexivity. symmetry in KE. apply Rmult_integral in KE. destruct KE as [->|]; [|contradiction]. fold k. rewrite Z. replace (0 / h - 0 / c) with 0 by (field; lra). now rewrite Rabs_R0.
  - fold k. assert (Kd : Rabs k < d). { apply Rmult_lt_reg_l with (1 - e); [lra|]. apply Rle_lt_trans with (Rabs n * Rabs h); trivial. apply Rle_lt_trans with ((Rabs n + 1) * Rabs h); [lra|]. apply Rlt_le_trans with ((Rabs n + 1) * (d * (1 - e) / (Rabs n + 1))); [now apply Rmult_lt_compat_l|]. right. field. lra. }
    specialize (Dd k Z Kd). rewrite KE in Dd. assert (Pk : 0 < Rabs k) by now apply Rabs_pos_lt.
    assert (D2 : Rabs (n * h - c * k) < ep * Rabs k). { replace (n * h - c * k) with ((n * h / k - c) * k) by (field; trivial). rewrite Rabs_mult. now apply Rmult_lt_compat_r. }
    replace (k / h - n / c) with (- (n * h - c * k) / (c * h)) by (field; lra). unfold Rdiv. rewrite Rabs_mult, Rabs_Ropp, Rabs_inv, Rabs_mult, (Rabs_pos_eq c) by lra. apply Rmult_lt_reg_r with (c * Rabs h); [now apply Rmult_lt_0_compat|]. rewrite Rmult_assoc, Rinv_l, Rmult_1_r by (apply Rmult_integral_contrapositive; lra).
    apply Rlt_le_trans with (ep * Rabs k); trivial. apply Rmult_le_reg_l with (1 - e); [lra|]. apply Rle_trans with (ep * (Rabs n * Rabs h)); [nra|]. apply Rle_trans with (ep * ((Rabs n + 1) * Rabs h)); [apply Rmult_le_compat_l; nra|]. right. unfold ep. field. lra.
Qed.
Section Motion.
Variables (e n : R) (E : R -> R) (t0 : R).
Hypothesis He : 0 <= e < 1.
Hypothesis DE : forall t : R, is_derive E t (n / (1 - e * cos (E t))).
Ltac side := repeat match goal with |- _ /\ _ => split | |- True => exact I | |- ex_derive _ _ => eexists; apply DE | |- _ <> 0 => assumption end.
Lemma NZ t : 1 - e * cos (E t) <> 0.
Proof. pose proof (one_minus e (E t) He). lra. Qed.
Lemma der_cos t : is_derive (fun t => cos (E t) - e) t (- sin (E t) * (n / (1 - e * cos (E t)))).
Proof. auto_derive; [side|]. rewrite (is_derive_unique (fun x : R => E x) _ _ (DE t)). ring. Qed.
Lemma der_sin t : is_derive (fun t => sin (E t)) t (cos (E t) * (n / (1 - e * cos (E t)))).
Proof. auto_derive; [side|]. rewrite (is_derive_unique (fun x : R => E x) _ _ (DE t)). ring. Qed.
Lemma der2_cos t : is_derive (fun t => - sin (E t) * (n / (1 - e * cos (E t)))) t (- n ^ 2 / (1 - e * cos (E t)) ^ 3 * (cos (E t) - e)).
Proof.
  pose proof (NZ t) as Nz. auto_derive; [side|]. rewrite (is_derive_unique (fun x : R => E x) _ _ (DE t)). pose proof (sc2 (E t)) as S. set (s := sin (E t)) in *. set (c := cos (E t)) in *.
  transitivity (n ^ 2 / (1 - e * c) ^ 3 * (- c * (1 - e * c) + e * (s * s))); [field; trivial|]. rewrite S. field. trivial.
Qed.
Lemma der2_sin t : is_derive (fun t => cos (E t) * (n / (1 - e * cos (E t)))) t (- n ^ 2 / (1 - e * cos (E t)) ^ 3 * sin (E t)).
Proof.
  pose proof (NZ t) as Nz. auto_derive; [side|]. rewrite (is_derive_unique (fun x : R => E x) _ _ (DE t)). set (s := sin (E t)) in *. set (c := cos (E t)) in *. field. trivial.
Qed.
(** any fixed combination of the coordinates in the orbital plane *)
Lemma combo_deriv p q a b t : is_derive (fun t => p * (a * (cos (E t) - e)) + q * (a * b * sin (E t))) t (p * (a * (- sin (E t) * (n / (1 - e * cos (E t))))) + q * (a * b * (cos (E t) * (n / (1 - e * cos (E t)))))).
Proof.
  apply (is_derive_plus (fun t => p * (a * (cos (E t) - e))) (fun t => q * (a * b * sin (E t)))); apply is_derive_scal.
  - apply is_derive_scal, der_cos.
  - apply is_derive_scal, der_sin.
Qed.
Lemma combo_deriv2 p q a b t : is_derive (fun t => p * (a * (- sin (E t) * (n / (1 - e * cos (E t))))) + q * (a * b * (cos (E t) * (n / (1 - e * cos (E t)))))) t (- n ^ 2 / (1 - e * cos (E t)) ^ 3 * (p * (a * (cos (E t) - e)) + q * (a * b * sin (E t)))).
Proof.
  evar_last; [apply (is_derive_plus (fun t => p * (a * (- sin (E t) * (n / (1 - e * cos (E t)))))) (fun t => q * (a * b * (cos (E t) * (n / (1 - e * cos (E t))))))); apply is_derive_scal; apply is_derive_scal; [apply der2_cos|apply der2_sin]|]. cbn. ring.
Qed.
End Motion.

(** an object whose orbit does not change: mean motion nd degrees per unit of time *)
Record fixed_orbit (k : kep) (a e i Lan ap M0 nd : R) : Prop := {
  fo_a : forall t, ka k t = a; fo_e : forall t, ke k t = e; fo_i : forall t, ki k t = i; fo_Lan : forall t, kLan k t = Lan;
  fo_ap : forall t, angle_of k t Aap = Ok ap; fo_M : forall t, angle_of k t AM = Ok (M0 + nd * t) }.
(** the solver finds the solution of Kepler's equation *)
Definition exact_solver (solve : option R -> R -> R -> R -> R) (tol : option R) (e : R) : Prop := tol <> Some 0 /\ forall E0 M, solve tol E0 M e - e * sin (solve tol E0 M e) = M.
Definition coordinate (j : nat) (p : R * R * R) : R := let '(x, y, z) := p in match j with 0%nat => x | 1%nat => y | _ => z end.
Lemma place_turns a e E1 E2 ap Lan i : sin (rad E1) = sin (rad E2) -> cos (rad E1) = cos (rad E2) -> place a e E1 ap Lan i = place a e E2 ap Lan i.
Proof. intros S C. unfold place. now rewrite S, C. Qed.
Lemma deg_inv x : rad (deg x) = x.
Proof. apply rad_deg_. Qed.
Lemma motion_position solve k a e i Lan ap M0 nd (E : R -> R) : 0 <= e < 1 -> fixed_orbit k a e i Lan ap M0 nd -> exact_solver solve (etol k) e -> (forall t, E t - e * sin (E t) = rad M0 + rad nd * t) ->
  forall t, position solve k t = Ok (place a e (deg (E t)) ap Lan i).
Proof.
  intros H [Fa Fe Fi FL Fp FM] [T X] K t. unfold position. rewrite FM, Fp. cbn [bind]. rewrite Fa, Fe, Fi, FL. f_equal.
  destruct (C72_anomaly solve (etol k) (M0 + nd * t) e (E t) 0 H T) as (z & Z).
  - intros E0 M. rewrite X, Rminus_diag_eq by reflexivity. rewrite Rabs_R0. lra.
  - rewrite K. unfold rad. field.
  - replace (0 / (1 - e)) with 0 in Z by (field; lra). assert (Q : rad (ecc solve (etol k) (M0 + nd * t) e) = E t + IZR z * (2 * PI)). { pose proof (Rabs_pos (rad (ecc solve (etol k) (M0 + nd * t) e) - (E t + IZR z * (2 * PI)))) as P. destruct (Req_dec (rad (ecc solve (etol k) (M0 + nd * t) e) - (E t + IZR z * (2 * PI))) 0) as [|N]; [lra|]. apply Rabs_pos_lt in N. lra. }
    apply place_turns; rewrite deg_inv, Q; [apply sin_2kpi|apply cos_2kpi].
Qed.
Lemma choose_E e M0 n : 0 <= e < 1 -> exists E : R -> R, forall t, E t - e * sin (E t) = M0 + n * t.
Proof.
  intros H. assert (R1 : forall m, {x | kepler e x = m}).
  { intros m. set (g := fun x => kepler e x - m). assert (Cg : continuity g) by (unfold g; apply continuity_minus; [apply kepler_cont|apply continuity_const; intros x y; reflexivity]).
    destruct (IVT g (m - 1) (m + 1) Cg) as (z & _ & Z); [lra| | |exists z; unfold g in Z; lra]; unfold g, kepler.
    - pose proof (SIN_bound (m - 1)). nra.
    - pose proof (SIN_bound (m + 1)). nra. }
  exists (fun t => proj1_sig (R1 (M0 + n * t))). intros t. destruct (R1 (M0 + n * t)) as [x X]. exact X.
Qed.
Lemma place_combo a e (E : R -> R) ap Lan i j : exists p q, forall x, coordinate j (place a e (deg (E x)) ap Lan i) = p * (a * (cos (E x) - e)) + q * (a * sqrt (1 - e * e) * sin (E x)).
Proof. unfold place, coordinate. destruct j as [|[|j]]; eexists; eexists; intros x; rewrite deg_inv; reflexivity. Qed.
(** Newton's law: the acceleration points to the focus and is inversely proportional to the square of the distance, with GM = n^2 a^3 *)
Theorem C73_newton : forall solve k a e i Lan ap M0 nd, 0 < a -> 0 <= e < 1 -> fixed_orbit k a e i Lan ap M0 nd -> exact_solver solve (etol k) e ->
  exists X : R -> R * R * R, (forall t, position solve k t = Ok (X t)) /\ forall j, exists V : R -> R, (forall t, is_derive (fun t => coordinate j (X t)) t (V t)) /\
  forall t, is_derive V t (- (rad nd ^ 2 * a ^ 3) * coordinate j (X t) / sqrt (norm2 (X t)) ^ 3).
Proof.
  intros solve k a e i Lan ap M0 nd A H F S. destruct (choose_E e (rad M0) (rad nd) H) as [E K]. exists (fun t => place a e (deg (E t)) ap Lan i). split; [now apply motion_position with M0 nd|]. intros j.
  assert (DE : forall t, is_derive E t (rad nd / (1 - e * cos (E t)))) by (intros t; now apply anomaly_deriv with (rad M0)).
  destruct (place_combo a e E ap Lan i j) as (p & q & PQ). exists (fun t => p * (a * (- sin (E t) * (rad nd / (1 - e * cos (E t))))) + q * (a * sqrt (1 - e * e) * (cos (E t) * (rad nd / (1 - e * cos (E t)))))). split; intros t.
  - eapply is_derive_ext; [intros x; symmetry; apply PQ|]. now apply combo_deriv.
  - evar_last; [now apply combo_deriv2|]. rewrite PQ. destruct (C73_distance a e (deg (E t)) ap Lan i A H) as (D & _). rewrite D, dist_eq, deg_inv by trivial. pose proof (NZ e E H t). field. split; lra.
Qed.
(** Kepler's second law: equal areas in equal times; the angular momentum is along the normal of the orbit *)
Theorem C73_areas : forall solve k a e i Lan ap M0 nd, 0 < a -> 0 <= e < 1 -> fixed_orbit k a e i Lan ap M0 nd -> exact_solver solve (etol k) e ->
  exists X V : R -> R * R * R, (forall t, position solve k t = Ok (X t)) /\ (forall j t, is_derive (fun t => coordinate j (X t)) t (coordinate j (V t))) /\
  forall t, cross3 (X t) (V t) = scale3 (rad nd * a ^ 2 * sqrt (1 - e * e)) (normal (rad Lan) (rad i)).
Proof.
  intros solve k a e i Lan ap M0 nd A H F S. destruct (choose_E e (rad M0) (rad nd) H) as [E K]. assert (DE : forall t, is_derive E t (rad nd / (1 - e * cos (E t)))) by (intros t; now apply anomaly_deriv with (rad M0)).
  set (w := rad ap). set (o := rad Lan). set (ii := rad i). set (b := sqrt (1 - e * e)).
  exists (fun t => place a e (deg (E t)) ap Lan i).
  exists (fun t => let x := a * (- sin (E t) * (rad nd / (1 - e * cos (E t)))) in let y := a * b * (cos (E t) * (rad nd / (1 - e * cos (E t)))) in
    ((cos w * cos o - sin w * sin o * cos ii) * x + (- sin w * cos o - cos w * sin o * cos ii) * y, (cos w * sin o + sin w * cos o * cos ii) * x + (- sin w * sin o + cos w * cos o * cos ii) * y, (sin w * sin ii) * x + (cos w * sin ii) * y)).
  split; [now apply motion_position with M0 nd|]. split.
  - intros j t. unfold place. fold w o ii b. destruct j as [|[|j]]; cbn [coordinate].
    + eapply (is_derive_ext (fun x => (cos w * cos o - sin w * sin o * cos ii) * (a * (cos (E x) - e)) + (- sin w * cos o - cos w * sin o * cos ii) * (a * b * sin (E x)))); [intros x; now rewrite deg_inv|]. now apply (combo_deriv e (rad nd)).
    + eapply (is_derive_ext (fun x => (cos w * sin o + sin w * cos o * cos ii) * (a * (cos (E x) - e)) + (- sin w * sin o + cos w * cos o * cos ii) * (a * b * sin (E x)))); [intros x; now rewrite deg_inv|]. now apply (combo_deriv e (rad nd)).
    + eapply (is_derive_ext (fun x => (sin w * sin ii) * (a * (cos (E x) - e)) + (cos w * sin ii) * (a * b * sin (E x)))); [intros x; now rewrite deg_inv|]. now apply (combo_deriv e (rad nd)).
  - intros t. unfold place. rewrite deg_inv. fold w o ii b. cbv zeta. pose proof (NZ e E H t) as Nz. set (c := cos (E t)) in *. set (s := sin (E t)) in *. set (m := rad nd / (1 - e * c)).
    assert (Q : (a * (c - e)) * (a * b * (c * m)) - (a * b * s) * (a * (- s * m)) = rad nd * a ^ 2 * b).
    { transitivity (a ^ 2 * b * m * (c * c + s * s - e * c)); [ring|]. unfold s. rewrite sc2. fold c. unfold m. field. trivial. }
    unfold cross3, scale3, normal. fold o ii. set (X1 := a * (c - e)) in *. set (Y1 := a * b * s) in *. set (X2 := a * (- s * m)) in *. set (Y2 := a * b * (c * m)) in *. rewrite <- Q. pose proof (sc2 w) as Sw. pose proof (sc2 o) as So. pose proof (sc2 ii) as Si.
    clearbody X1 Y1 X2 Y2 w o ii. set (cw := cos w) in *. set (sw := sin w) in *. set (co := cos o) in *. set (so := sin o) in *. set (ci := cos ii) in *. set (si := sin ii) in *. clearbody cw sw co so ci si. f_equal; [f_equal|].
    + transitivity ((X1 * Y2 - Y1 * X2) * (so * si) * (sw * sw + cw * cw)); [ring|]. rewrite Sw. ring.
    + transitivity (- (X1 * Y2 - Y1 * X2) * (co * si) * (sw * sw + cw * cw)); [ring|]. rewrite Sw. ring.
    + transitivity ((X1 * Y2 - Y1 * X2) * ci * ((sw * sw + cw * cw) * (so * so + co * co))); [ring|]. rewrite Sw, So. ring.
Qed.
(** the orbit closes after a full turn of the mean anomaly *)
Theorem C73_period : forall solve k a e i Lan ap M0 nd t, 0 <= e < 1 -> fixed_orbit k a e i Lan ap M0 nd -> exact_solver solve (etol k) e -> nd <> 0 -> position solve k (t + 360 / nd) = position solve k t.
Proof.
  intros solve k a e i Lan ap M0 nd t H F S N. destruct (choose_E e (rad M0) (rad nd) H) as [E K]. rewrite !(motion_position solve k a e i Lan ap M0 nd E) by trivial. f_equal.
  assert (Q : E (t + 360 / nd) = E t + IZR 1 * (2 * PI)). { apply (proj1 (C72_kepler e H) (rad M0 + rad nd * (t + 360 / nd))) || idtac. destruct (proj1 (C72_kepler e H) (rad M0 + rad nd * (t + 360 / nd))) as (z & Z & U). transitivity z; [symmetry; now apply U|]. apply U. rewrite (proj2 (proj2 (C72_kepler e H))), K. unfold rad. field. trivial. }
  apply place_turns; rewrite !deg_inv, Q; [apply sin_2kpi|apply cos_2kpi].
Qed.
(** P is that period if GM = 4 pi^2 (AU and years around the Sun) ... *)
Theorem C73_P : forall a nd, 0 < a -> 0 < nd -> (rad nd ^ 2 * a ^ 3 = 4 * PI ^ 2 <-> 360 / nd = period a).
Proof.
  intros a nd A N. pose proof PI_RGT_0 as Pp. unfold period. assert (Q : Rpower a 1.5 ^ 2 = a ^ 3). { rewrite <- Rpower_pow by apply exp_pos. rewrite Rpower_mult. replace (1.5 * INR 2) with (INR 3) by (simpl; lra). now apply Rpower_pow. }
  set (p := Rpower a 1.5) in *. assert (Pp' : 0 < p) by apply exp_pos. rewrite <- Q. unfold rad. assert (B : (nd * PI / 180) ^ 2 * p ^ 2 = 4 * PI ^ 2 <-> nd * p = 360).
  { split; intros E.
    - assert (E2 : (nd * p) ^ 2 = 360 ^ 2). { apply (Rmult_eq_reg_l (PI ^ 2 / 180 ^ 2)); [|apply Rgt_not_eq; apply Rdiv_lt_0_compat; [now apply pow_lt|lra]]. transitivity ((nd * PI / 180) ^ 2 * p ^ 2); [field|]. rewrite E. field. }
      assert (0 < nd * p) by now apply Rmult_lt_0_compat. nra.
    - transitivity ((PI / 180) ^ 2 * (nd * p) ^ 2); [field|]. rewrite E. field. }
  rewrite B. split; intros E; [rewrite <- E; field; lra|]. rewrite <- E. field. lra.
Qed.
(** ... not if GM = 1, as documented *)
Theorem C73_P_refuted : exists solve k a nd, 0 < a /\ fixed_orbit k a 0 0 0 0 0 nd /\ exact_solver solve (etol k) 0 /\ rad nd ^ 2 * a ^ 3 = 1 /\ position solve k (0 + period a) <> position solve k 0.
Proof.
  exists (fun _ _ M _ => M), (Kep (fun _ => 1) (fun _ => 0) (fun _ => 0) (fun _ => 0) None None (Some (fun _ => 0)) (Some (fun t => 0 + deg 1 * t)) None None), 1, (deg 1). split; [lra|].
  assert (F : fixed_orbit (Kep (fun _ => 1) (fun _ => 0) (fun _ => 0) (fun _ => 0) None None (Some (fun _ => 0)) (Some (fun t => 0 + deg 1 * t)) None None) 1 0 0 0 0 0 (deg 1)) by (constructor; reflexivity).
  assert (X : exact_solver (fun _ _ M _ => M) None 0) by (split; [discriminate|intros; ring]). split; [exact F|]. split; [exact X|]. split; [rewrite deg_inv; ring|].
  assert (H0 : 0 <= 0 < 1) by lra. assert (K : forall t, t - 0 * sin t = rad 0 + rad (deg 1) * t) by (intros t; rewrite deg_inv; unfold rad; field). rewrite !(motion_position _ _ 1 0 0 0 0 0 (deg 1) (fun t => t) H0 F X K). unfold place. rewrite !deg_inv. replace (rad 0) with 0 by (unfold rad; field). rewrite sin_0, cos_0.
  assert (P : period 1 = 1) by (unfold period; apply Rpower_1_base || (unfold Rpower; rewrite ln_1, Rmult_0_r, exp_0; reflexivity)). rewrite P. intros E. injection E as _ E2 _. replace (1 - 0 * 0) with 1 in E2 by ring. rewrite sqrt_1, Rplus_0_l in E2. pose proof PI2_1. assert (0 < sin 1) by (apply sin_gt_0; lra). lra.
Qed.
(** turning the ecliptic to the equator keeps distances (to one part in 10^16) *)
Theorem C73_tilt : forall p, Rabs (norm2 (tilt p) - norm2 p) <= 2e-17 * norm2 p.
Proof.
  intros [[x y] z]. unfold tilt, norm2. set (s := 0.39777697800876388). set (c := 0.91748213920828747). assert (Q : -(2e-17) <= s * s + c * c - 1 <= 2e-17) by (unfold s, c; lra).
  replace (x ^ 2 + (c * y - s * z) ^ 2 + (s * y + c * z) ^ 2 - (x ^ 2 + y ^ 2 + z ^ 2)) with ((s * s + c * c - 1) * (y ^ 2 + z ^ 2)) by ring. apply Rabs_le. pose proof (pow2_ge_0 x). pose proof (pow2_ge_0 y). pose proof (pow2_ge_0 z). set (u := s * s + c * c - 1) in *. clearbody u. nra.
Qed.
Example C73_nonvacuous : exists k, fixed_orbit k 2 0.5 10 20 30 40 50 /\ exists solve, exact_solver solve (etol k) 0.5.
Proof.
  exists (Kep (fun _ => 2) (fun _ => 0.5) (fun _ => 10) (fun _ => 20) None None (Some (fun _ => 30)) (Some (fun t => 40 + 50 * t)) None None). split; [constructor; reflexivity|]. destruct (choose_E 0.5 0 1 ltac:(lra)) as [E K]. exists (fun _ _ M _ => E M). split; [discriminate|]. intros. rewrite K. ring.
Qed.
