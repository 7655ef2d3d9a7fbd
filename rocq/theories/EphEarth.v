(** * EphEarth: phases and the Earth (C74, C75) *)
From Coq Require Import List Bool ZArith Reals Lra Lia.
From Coquelicot Require Import Coquelicot.
From Verif Require Import PyBase RealTrig EphModel.
Import ListNotations.
Open Scope R_scope.

(** ** Specification: vectors *)
Definition vec := (R * R * R)%type.
Definition vminus (p q : vec) : vec := let '(x, y, z) := p in let '(x', y', z') := q in (x - x', y - y', z - z').
Definition vplus (p q : vec) : vec := let '(x, y, z) := p in let '(x', y', z') := q in (x + x', y + y', z + z').
Definition vtimes (c : R) (p : vec) : vec := let '(x, y, z) := p in (c * x, c * y, c * z).
Definition vdot (p q : vec) : R := let '(x, y, z) := p in let '(x', y', z') := q in x * x' + y * y' + z * z'.
Definition vlen (p : vec) : R := sqrt (vdot p p).

Lemma vdot_nonneg p : 0 <= vdot p p.
Proof. destruct p as [[x y] z]. cbn [vdot]. nra. Qed.
Lemma vlen_sq p : vlen p * vlen p = vdot p p.
Proof. apply sqrt_sqrt, vdot_nonneg. Qed.
Lemma vlen_0 p : vlen p = 0 <-> p = (0, 0, 0).
Proof.
  split.
  - intros H. assert (Q : vdot p p = 0) by (rewrite <- vlen_sq, H; ring). destruct p as [[x y] z]. cbn [vdot] in Q. pose proof (pow2_ge_0 x). pose proof (pow2_ge_0 y). pose proof (pow2_ge_0 z). assert (x ^ 2 = 0) by lra. assert (y ^ 2 = 0) by lra. assert (z ^ 2 = 0) by lra. f_equal; [f_equal|]; nra.
  - intros ->. unfold vlen, vdot. replace (0 * 0 + 0 * 0 + 0 * 0) with 0 by ring. apply sqrt_0.
Qed.
Lemma vminus_0 p q : vminus p q = (0, 0, 0) <-> p = q.
Proof.
  destruct p as [[x y] z], q as [[x' y'] z']. cbn [vminus]. split; intros E; injection E as E1 E2 E3; [f_equal; [f_equal|]; lra|]. subst. f_equal; [f_equal|]; ring.
Qed.
Lemma cauchy p q : vdot p q ^ 2 <= vdot p p * vdot q q.
Proof. destruct p as [[x y] z], q as [[x' y'] z']. unfold vdot. pose proof (pow2_ge_0 (x * y' - y * x')). pose proof (pow2_ge_0 (x * z' - z * x')). pose proof (pow2_ge_0 (y * z' - z * y')). lra. Qed.
Lemma collinear p q : q <> (0, 0, 0) -> vdot p q ^ 2 = vdot p p * vdot q q -> p = vtimes (vdot p q / vdot q q) q.
Proof.
  intros N E. assert (Q : vdot q q <> 0) by (rewrite <- vlen_sq; intros Z; apply N; apply vlen_0; nra).
  set (k := vdot p q / vdot q q). assert (Z : vdot (vminus p (vtimes k q)) (vminus p (vtimes k q)) = 0).
  { transitivity (vdot p p - 2 * k * vdot p q + k * k * vdot q q); [destruct p as [[x y] z], q as [[x' y'] z']; unfold vdot, vminus, vtimes; ring|]. unfold k. apply (Rmult_eq_reg_r (vdot q q)); [|trivial]. transitivity (vdot p p * vdot q q - vdot p q ^ 2); [field; trivial|]. rewrite E. ring. }
  apply vminus_0, vlen_0. unfold vlen. rewrite Z. apply sqrt_0.
Qed.
Lemma vlen_pos p : p <> (0, 0, 0) -> 0 < vlen p.
Proof. intros N. destruct (sqrt_pos (vdot p p)) as [|E]; [trivial|]. exfalso. apply N, vlen_0. symmetry. exact E. Qed.

(** the directions to the viewer and to the light, from the object *)
Lemma phase_eq p v i : phase p v i = (if Req_EM_T (2 * vlen (vminus i p) * vlen (vminus v p)) 0 then None else Some ((1 + vdot (vminus v p) (vminus i p) / (vlen (vminus v p) * vlen (vminus i p))) / 2)).
Proof.
  destruct p as [[x y] z], v as [[xv yv] zv], i as [[xi yi] zi]. unfold phase, vlen, vminus, vdot.
  replace ((xi - x) * (xi - x) + (yi - y) * (yi - y) + (zi - z) * (zi - z)) with ((x - xi) * (x - xi) + (y - yi) * (y - yi) + (z - zi) * (z - zi)) by ring.
  replace ((xv - x) * (xv - x) + (yv - y) * (yv - y) + (zv - z) * (zv - z)) with ((x - xv) * (x - xv) + (y - yv) * (y - yv) + (z - zv) * (z - zv)) by ring.
  set (A := (x - xi) * (x - xi) + (y - yi) * (y - yi) + (z - zi) * (z - zi)). set (B := (x - xv) * (x - xv) + (y - yv) * (y - yv) + (z - zv) * (z - zv)). set (C := (xv - xi) * (xv - xi) + (yv - yi) * (yv - yi) + (zv - zi) * (zv - zi)).
  assert (S3 : forall u v w : R, 0 <= u * u + v * v + w * w) by (intros; nra). assert (PA : 0 <= A) by apply S3. assert (PB : 0 <= B) by apply S3. assert (PC : 0 <= C) by apply S3.
  destruct (Req_EM_T (2 * sqrt A * sqrt B) 0) as [|N]; [reflexivity|]. f_equal. rewrite !sqrt_sqrt by trivial. assert (sqrt A <> 0) by (intros Z; apply N; rewrite Z; ring). assert (sqrt B <> 0) by (intros Z; apply N; rewrite Z; ring).
  replace (A + B - C) with (2 * ((xv - x) * (xi - x) + (yv - y) * (yi - y) + (zv - z) * (zi - z))) by (unfold A, B, C; ring). field. now split.
Qed.
(** the illuminated fraction is (1 + cos) / 2 of the angle between viewer and light, seen from the object *)
Theorem C74_fraction : forall p v i, v <> p -> i <> p -> exists th, 0 <= th <= PI /\ vdot (vminus v p) (vminus i p) = vlen (vminus v p) * vlen (vminus i p) * cos th /\ phase p v i = Some ((1 + cos th) / 2).
Proof.
  intros p v i Nv Ni. rewrite phase_eq. assert (Lv : 0 < vlen (vminus v p)) by (apply vlen_pos; intros E; now apply Nv, vminus_0). assert (Li : 0 < vlen (vminus i p)) by (apply vlen_pos; intros E; now apply Ni, vminus_0).
  pose proof (cauchy (vminus v p) (vminus i p)) as Cc. rewrite <- !vlen_sq in Cc. set (a := vlen (vminus v p)) in *. set (b := vlen (vminus i p)) in *. set (d := vdot (vminus v p) (vminus i p)) in *. assert (Pab : 0 < a * b) by now apply Rmult_lt_0_compat.
  assert (B : -1 <= d / (a * b) <= 1). { assert (-(a * b) <= d <= a * b) by nra. split; apply (Rmult_le_reg_r (a * b)); trivial; replace (d / (a * b) * (a * b)) with d by (field; lra); lra. }
  exists (acos (d / (a * b))). split; [apply acos_bound|]. rewrite cos_acos by trivial. split; [field; lra|]. destruct (Req_EM_T (2 * b * a) 0) as [Z|]; [nra|reflexivity].
Qed.
Theorem C74_range : forall p v i f, phase p v i = Some f -> 0 <= f <= 1.
Proof.
  intros p v i f H. assert (N : v <> p /\ i <> p).
  { rewrite phase_eq in H. destruct (Req_EM_T _ 0) as [|N]; [discriminate|]. split; intros ->; apply N; [rewrite (proj2 (vlen_0 (vminus p p)))|rewrite (proj2 (vlen_0 (vminus p p)))]; try ring; now apply vminus_0. }
  destruct (C74_fraction p v i (proj1 N) (proj2 N)) as (th & _ & _ & E). rewrite E in H. injection H as <-. pose proof (COS_bound th). lra.
Qed.
(** there is a fraction unless the object is at the viewer or at the light *)
Theorem C74_defined : forall p v i, phase p v i = None <-> p = v \/ p = i.
Proof.
  intros p v i. rewrite phase_eq. destruct (Req_EM_T _ 0) as [E|N].
  - split; [intros _|reflexivity]. assert (vlen (vminus i p) = 0 \/ vlen (vminus v p) = 0) as [Z|Z] by (destruct (Req_dec (vlen (vminus i p)) 0) as [|Q]; [now left|right; nra]); apply vlen_0 in Z; apply (proj1 (vminus_0 _ p)) in Z; subst; auto.
  - split; [discriminate|]. intros [-> | ->]; exfalso; apply N; [rewrite (proj2 (vlen_0 (vminus v v)))|rewrite (proj2 (vlen_0 (vminus i i)))]; try ring; now apply vminus_0.
Qed.
(** full exactly when the viewer is on the ray from the object to the light, new exactly when it is on the opposite ray *)
Theorem C74_full : forall p v i, v <> p -> i <> p -> (phase p v i = Some 1 <-> exists c, 0 < c /\ vminus v p = vtimes c (vminus i p)) /\ (phase p v i = Some 0 <-> exists c, 0 < c /\ vminus v p = vtimes (- c) (vminus i p)).
Proof.
  intros p v i Nv Ni. rewrite phase_eq. assert (Lv : 0 < vlen (vminus v p)) by (apply vlen_pos; intros E; now apply Nv, vminus_0). assert (Li : 0 < vlen (vminus i p)) by (apply vlen_pos; intros E; now apply Ni, vminus_0). assert (NI : vminus i p <> (0, 0, 0)) by (intros E; now apply Ni, vminus_0).
  pose proof (collinear (vminus v p) (vminus i p) NI) as Co. pose proof (vlen_sq (vminus v p)) as Sv. pose proof (vlen_sq (vminus i p)) as Si.
  assert (Ex : forall c, vminus v p = vtimes c (vminus i p) -> vlen (vminus v p) = Rabs c * vlen (vminus i p) /\ vdot (vminus v p) (vminus i p) = c * (vlen (vminus i p) * vlen (vminus i p))).
  { intros c E. rewrite Si, E. split; [|destruct (vminus i p) as [[x y] z]; unfold vdot, vtimes; ring]. unfold vlen. rewrite <- sqrt_Rsqr_abs, <- sqrt_mult; [|apply Rle_0_sqr|apply vdot_nonneg]. f_equal. destruct (vminus i p) as [[x y] z]. unfold Rsqr, vdot, vtimes. ring. }
  set (a := vlen (vminus v p)) in *. set (b := vlen (vminus i p)) in *. set (d := vdot (vminus v p) (vminus i p)) in *. assert (Pab : 0 < a * b) by now apply Rmult_lt_0_compat. destruct (Req_EM_T (2 * b * a) 0) as [Z|_]; [nra|]. rewrite <- Sv, <- Si in Co.
  assert (Dd : d = (d / (a * b)) * (a * b)) by (field; lra). split; split.
  - intros E. assert (F : d / (a * b) = 1) by (apply (f_equal (fun o => match o with Some x => x | None => 0 end)) in E; lra). rewrite F in Dd. exists (d / (b * b)). split; [apply Rdiv_lt_0_compat; nra|]. apply Co. rewrite Dd. ring.
  - intros (c & Pc & E). destruct (Ex c E) as (E1 & E2). rewrite Rabs_right in E1 by lra. f_equal. rewrite E2, E1. field. split; nra.
  - intros E. assert (F : d / (a * b) = -1) by (apply (f_equal (fun o => match o with Some x => x | None => 0 end)) in E; lra). rewrite F in Dd. exists (- d / (b * b)). split; [apply Rdiv_lt_0_compat; nra|]. replace (- (- d / (b * b))) with (d / (b * b)) by (field; nra). apply Co. rewrite Dd. ring.
  - intros (c & Pc & E). destruct (Ex (- c) E) as (E1 & E2). rewrite Rabs_left in E1 by lra. f_equal. rewrite E2, E1. field. split; nra.
Qed.
(** viewer and light may be exchanged *)
Theorem C74_exchange : forall p v i, phase p v i = phase p i v.
Proof.
  intros p v i. rewrite !phase_eq. set (a := vlen (vminus i p)). set (b := vlen (vminus v p)). destruct (Req_EM_T (2 * a * b) 0), (Req_EM_T (2 * b * a) 0); [reflexivity|exfalso; lra|exfalso; lra|]. do 3 f_equal. rewrite (Rmult_comm a b). f_equal. destruct (vminus v p) as [[x y] z], (vminus i p) as [[x' y'] z']. unfold vdot. ring.
Qed.
(** the Moon: the same fraction, with the Sun as the light, the Earth at e and the Moon at e + g *)
Theorem C74_moon : forall g e, moon_phase g e = phase (vplus e g) e (0, 0, 0).
Proof.
  intros [[xg yg] zg] [[xe ye] ze]. unfold phase, moon_phase, vplus. rewrite !Rminus_0_r. replace (xe + xg - xe) with xg by ring. replace (ye + yg - ye) with yg by ring. replace (ze + zg - ze) with zg by ring. reflexivity.
Qed.
Example C74_nonvacuous : phase (0, 0, 0) (3, 0, 0) (0, 0, 5) = Some (1 / 2).
Proof.
  destruct (C74_fraction (0, 0, 0) (3, 0, 0) (0, 0, 5)) as (th & T & D & E); [intros Q; injection Q; lra|intros Q; injection Q; lra|]. rewrite E. assert (C : cos th = 0).
  { assert (0 < vlen (vminus (3, 0, 0) (0, 0, 0))) by (apply vlen_pos; intros Q; injection Q; lra). assert (0 < vlen (vminus (0, 0, 5) (0, 0, 0))) by (apply vlen_pos; intros Q; injection Q; lra). apply (Rmult_eq_reg_l (vlen (vminus (3, 0, 0) (0, 0, 0)) * vlen (vminus (0, 0, 5) (0, 0, 0)))); [|nra]. rewrite <- D. unfold vdot, vminus. ring. }
  rewrite C. f_equal. lra.
Qed.

(** ** C75: the Earth *)
Lemma dplus (f g : R -> R) (t a b : R) : is_derive f t a -> is_derive g t b -> is_derive (fun t => f t + g t) t (a + b).
Proof. intros. now apply (is_derive_plus f g). Qed.
Lemma sum_deriv (f g : term -> R -> R) l t : (forall x, is_derive (f x) t (g x t)) -> is_derive (fun t => sum (fun x => f x t) l) t (sum (fun x => g x t) l).
Proof.
  intros H. induction l as [|x l IH]; cbn [sum]; [auto_derive; trivial|]. apply (is_derive_plus (f x) (fun t => sum (fun x => f x t) l)); auto.
Qed.
Lemma series_deriv c0 c1 c2 t : is_derive (fun t => series_pos t c0 c1 c2) t (series_vel t c0 c1 c2).
Proof.
  unfold series_pos, series_vel. apply dplus; [apply dplus|].
  - apply (sum_deriv (fun x t => let '(a, b, c) := x in a * cos (b + c * t)) (fun x t => let '(a, b, c) := x in - a * c * sin (b + c * t))). intros [[a b] c]. auto_derive; [trivial|ring].
  - apply (sum_deriv (fun x t => let '(a, b, c) := x in a * t * cos (b + c * t)) (fun x t => let '(a, b, c) := x in a * (cos (b + c * t) - c * t * sin (b + c * t)))). intros [[a b] c]. auto_derive; [trivial|ring].
  - apply (sum_deriv (fun x t => let '(a, b, c) := x in a * cos (b + c * t) * t * t) (fun x t => let '(a, b, c) := x in a * t * (2 * cos (b + c * t) - c * t * sin (b + c * t)))). intros [[a b] c]. auto_derive; [trivial|ring].
Qed.
Lemma ecl_deriv k bary i t : is_derive (fun t => ecl_pos k bary t i) t (ecl_vel k bary t i).
Proof.
  unfold ecl_pos, ecl_vel. destruct bary; [|apply series_deriv]. apply dplus; apply series_deriv.
Qed.
Lemma rotate_deriv k (p v : R -> nat -> R) i t : (forall j, is_derive (fun t => p t j) t (v t j)) -> is_derive (fun t => rotate k (p t) i) t (rotate k (v t) i).
Proof.
  intros H. unfold rotate. apply dplus; [apply dplus|]; apply is_derive_scal, H.
Qed.
Lemma earth_deriv au sy k bary i jd : is_derive (fun jd => earth_pos k bary jd i) jd (/ 365.25 * earth_vel au sy k bary false jd i).
Proof.
  unfold earth_pos, earth_vel. apply (is_derive_comp (fun t => rotate k (ecl_pos k bary t) i) (fun jd => (jd - jd2000) / 365.25)).
  - apply (rotate_deriv k (ecl_pos k bary) (ecl_vel k bary)). intros j. apply ecl_deriv.
  - auto_derive; [trivial|]. lra.
Qed.
(** the velocity in AU/yr is the rate of change of the position in AU per year of 365.25 days, whatever the coefficients *)
Theorem C75_velocity_au : forall au sy k bary i jd0 y, is_derive (fun y => earth_pos k bary (jd0 + 365.25 * y) i) y (earth_vel au sy k bary false (jd0 + 365.25 * y) i).
Proof.
  intros. evar_last; [apply (is_derive_comp (fun jd => earth_pos k bary jd i) (fun y => jd0 + 365.25 * y)); [apply (earth_deriv au sy)|auto_derive; [trivial|reflexivity]]|]. change (365.25 * 1 * (/ 365.25 * earth_vel au sy k bary false (jd0 + 365.25 * y) i) = earth_vel au sy k bary false (jd0 + 365.25 * y) i). set (w := earth_vel _ _ _ _ _ _ _). lra.
Qed.
(** in km/s it is the rate of change of the position in km per second *)
Theorem C75_velocity_kms : forall cmperau k bary i jd0 s, 0 < cmperau ->
  is_derive (fun s => earth_pos k bary (jd0 + s / 86400) i * (cmperau / 100000)) s (earth_vel (1 / cmperau) (365.25 * 86400) k bary true (jd0 + s / 86400) i).
Proof.
  intros cm k bary i jd0 s H. evar_last; [apply (is_derive_ext (fun s => (cm / 100000) * earth_pos k bary (jd0 + s / 86400) i)); [intros x; apply Rmult_comm|]; apply is_derive_scal; apply (is_derive_comp (fun jd => earth_pos k bary jd i) (fun s => jd0 + s / 86400)); [apply (earth_deriv (1 / cm) (365.25 * 86400))|auto_derive; [trivial|reflexivity]]|].
  change (cm / 100000 * (1 * / 86400 * (/ 365.25 * earth_vel (1 / cm) (365.25 * 86400) k bary false (jd0 + s / 86400) i)) = earth_vel (1 / cm) (365.25 * 86400) k bary true (jd0 + s / 86400) i).
  unfold earth_vel. cbv zeta. set (w := rotate _ _ _). field. split; lra.
Qed.
(** the barycentric place is the heliocentric one plus the Sun's place: a shift given by the series b alone *)
Theorem C75_barycentric : forall k jd i, earth_pos k true jd i = earth_pos k false jd i + earth_pos (Coeffs (bs k) (fun _ _ => []) (mat k)) false jd i.
Proof. intros. unfold earth_pos, rotate, ecl_pos. cbn [hs bs mat]. ring. Qed.
(** what is added is independent of the heliocentric series; distances are kept if the matrix is orthogonal *)
Theorem C75_rotation : forall k bary jd, (forall a b, (a < 3)%nat -> (b < 3)%nat -> mat k 0 a * mat k 0 b + mat k 1 a * mat k 1 b + mat k 2 a * mat k 2 b = if Nat.eqb a b then 1 else 0) ->
  let t := (jd - 2451545) / 365.25 in
  earth_pos k bary jd 0 ^ 2 + earth_pos k bary jd 1 ^ 2 + earth_pos k bary jd 2 ^ 2 = ecl_pos k bary t 0 ^ 2 + ecl_pos k bary t 1 ^ 2 + ecl_pos k bary t 2 ^ 2.
Proof.
  intros k bary jd M t. unfold earth_pos. fold jd2000. change ((jd - jd2000) / 365.25) with t. unfold rotate. set (x := ecl_pos k bary t 0). set (y := ecl_pos k bary t 1). set (z := ecl_pos k bary t 2).
  pose proof (M 0 0 ltac:(lia) ltac:(lia))%nat as M00. pose proof (M 0 1 ltac:(lia) ltac:(lia))%nat as M01. pose proof (M 0 2 ltac:(lia) ltac:(lia))%nat as M02. pose proof (M 1 1 ltac:(lia) ltac:(lia))%nat as M11. pose proof (M 1 2 ltac:(lia) ltac:(lia))%nat as M12. pose proof (M 2 2 ltac:(lia) ltac:(lia))%nat as M22. cbn [Nat.eqb] in *.
  transitivity (x ^ 2 * (mat k 0 0 * mat k 0 0 + mat k 1 0 * mat k 1 0 + mat k 2 0 * mat k 2 0) + y ^ 2 * (mat k 0 1 * mat k 0 1 + mat k 1 1 * mat k 1 1 + mat k 2 1 * mat k 2 1) + z ^ 2 * (mat k 0 2 * mat k 0 2 + mat k 1 2 * mat k 1 2 + mat k 2 2 * mat k 2 2)
    + 2 * x * y * (mat k 0 0 * mat k 0 1 + mat k 1 0 * mat k 1 1 + mat k 2 0 * mat k 2 1) + 2 * x * z * (mat k 0 0 * mat k 0 2 + mat k 1 0 * mat k 1 2 + mat k 2 0 * mat k 2 2) + 2 * y * z * (mat k 0 1 * mat k 0 2 + mat k 1 1 * mat k 1 2 + mat k 2 1 * mat k 2 2)); [ring|].
  rewrite M00, M01, M02, M11, M12, M22. ring.
Qed.
Example C75_nonvacuous : forall au sy, earth_vel au sy (Coeffs (fun j _ => if Nat.eqb j 1 then [(1, 0, 0)] else []) (fun _ _ => []) (fun a b => if Nat.eqb a b then 1 else 0)) false false 2451545 0 = 1.
Proof. intros. unfold earth_vel, rotate, ecl_vel, series_vel, hs, mat, Nat.eqb, sum. rewrite !Rmult_0_l, !Rplus_0_r, cos_0. ring. Qed.
