(** * FuncsProps: C28 (coordinate conversions), C29 (matching), C37 (Earth rotation and sidereal time) *)
From Coq Require Import Reals ZArith List Bool Arith Lia Lra Permutation.
From Verif Require Import PyBase RealTrig AlgModel FuncsModel.
Import ListNotations.
Open Scope R_scope.

(** ** C28: polar, spherical, cylindrical *)
(** a full range of angles: (-180,180] degrees or (-pi,pi] *)
Definition azimuth (degrees : bool) (t : R) : Prop := if degrees then -180 < t <= 180 else - PI < t <= PI.
Definition colatitude (degrees : bool) (t : R) : Prop := if degrees then 0 < t < 180 else 0 < t < PI.
Lemma sqrt_rsq r t : 0 <= r -> sqrt (r * cos t * (r * cos t) + r * sin t * (r * sin t)) = r.
Proof. intros H. apply sqrt_sqr_sum; auto. pose proof (sin2_cos2 t) as S. unfold Rsqr in S. nra. Qed.
Lemma rad_az t : -180 < t <= 180 -> - PI < rad t <= PI. Proof. intros H. pose proof PI_RGT_0. unfold rad. split; nra. Qed.
Lemma deg_az t : - PI < t <= PI -> -180 < deg t <= 180.
Proof.
  intros H. pose proof PI_RGT_0. unfold deg. assert (0 < / PI) by (apply Rinv_0_lt_compat; lra). assert (t / PI * PI = t) by (field; lra).
  unfold Rdiv in *. rewrite (Rmult_comm t 180), Rmult_assoc. split; [assert (-1 < t * / PI) by nra|assert (t * / PI <= 1) by nra]; lra.
Qed.
Theorem C28_polar : forall dg, 
  (forall x y, let '(r, t) := cartesian_to_polar x y dg in polar_to_cartesian r t dg = (x, y) /\ 0 <= r /\ azimuth dg t) /\
  (forall r t, 0 < r -> azimuth dg t -> let '(x, y) := polar_to_cartesian r t dg in cartesian_to_polar x y dg = (r, t)).
Proof.
  intros dg. split.
  - intros x y. unfold cartesian_to_polar, polar_to_cartesian. pose proof (atan2_range y x) as Hr. destruct (atan2_polar x y) as (A & B).
    split; [|split; [apply sqrt_pos|]].
    + destruct dg; rewrite ?rad_deg; rewrite <- A, <- B; reflexivity.
    + destruct dg; cbn; [now apply deg_az|exact Hr].
  - intros r t Hr Ht. unfold cartesian_to_polar, polar_to_cartesian. rewrite sqrt_rsq by lra. f_equal.
    destruct dg; cbn in Ht; [|now apply atan2_sincos]. rewrite atan2_sincos; [apply deg_rad|auto|now apply rad_az].
Qed.
Print Assumptions C28_polar.
Lemma atan2_pos_y y x : 0 <= y -> 0 <= atan2 y x.
Proof.
  intros H. pose proof PI_RGT_0. unfold atan2. destruct (Rlt_dec 0 x) as [Hx|Hx].
  - destruct (Req_dec y 0) as [->|]; [unfold Rdiv; rewrite Rmult_0_l, atan_0; lra|]. left. rewrite <- atan_0. apply atan_increasing. apply Rdiv_lt_0_compat; lra.
  - destruct (Rlt_dec x 0); [destruct (Rle_dec 0 y); [destruct (atan_bound (y / x)); lra|lra]|]. destruct (Rlt_dec 0 y); [lra|]. destruct (Rlt_dec y 0); lra.
Qed.
Theorem C28_spherical : forall dg,
  (forall x y z, let '(r, t, p) := cartesian_to_spherical x y z dg in
     spherical_to_cartesian r t p dg = (x, y, z) /\ 0 <= r /\ (if dg then 0 <= t <= 180 else 0 <= t <= PI) /\ azimuth dg p /\ r^2 = x^2 + y^2 + z^2) /\
  (forall r t p, 0 < r -> colatitude dg t -> azimuth dg p -> let '(x, y, z) := spherical_to_cartesian r t p dg in cartesian_to_spherical x y z dg = (r, t, p)).
Proof.
  intros dg. pose proof PI_RGT_0 as Pi. split.
  - intros x y z. unfold cartesian_to_spherical. set (s := sqrt (x * x + y * y)). set (t := atan2 s z). set (p := atan2 y x). set (r := sqrt (x * x + y * y + z * z)).
    assert (0 <= s) as Hs by apply sqrt_pos. assert (s * s = x * x + y * y) as Ss by (apply sqrt_sqrt; nra).
    destruct (atan2_polar x y) as (A & B). fold s p in A, B. destruct (atan2_polar z s) as (C & D). fold t in C, D. assert (sqrt (z * z + s * s) = r) as Er by (unfold r; f_equal; lra). rewrite Er in C, D.
    assert (spherical_to_cartesian r t p false = (x, y, z)) as E by (unfold spherical_to_cartesian; rewrite <- D, <- C, <- A, <- B; reflexivity).
    pose proof (atan2_range y x) as Hp. fold p in Hp. pose proof (atan2_range s z) as Ht. fold t in Ht. pose proof (atan2_pos_y s z Hs) as Ht0. fold t in Ht0.
    assert (0 <= r) as Hr by apply sqrt_pos. assert (r ^ 2 = x^2 + y^2 + z^2) as R2. { unfold r. replace (sqrt (x * x + y * y + z * z) ^ 2) with (sqrt (x * x + y * y + z * z) * sqrt (x * x + y * y + z * z)) by ring. rewrite sqrt_sqrt by nra. ring. }
    destruct dg.
    + split; [|split; [auto|split; [|split; [now apply deg_az|auto]]]].
      * unfold spherical_to_cartesian in *. rewrite !rad_deg. exact E.
      * assert (- PI < t <= PI) as Q by lra. apply deg_az in Q. split; [|lra]. unfold deg, Rdiv. apply Rmult_le_pos; [lra|]. left. now apply Rinv_0_lt_compat.
    + repeat split; auto; lra.
  - intros r t p Hr Ht Hp.
    assert (forall t p, 0 < t < PI -> - PI < p <= PI -> cartesian_to_spherical (r * sin t * cos p) (r * sin t * sin p) (r * cos t) false = (r, t, p)) as K.
    { clear t p Ht Hp. intros t p Ht Hp. unfold cartesian_to_spherical. pose proof (sin_gt_0 t ltac:(lra) ltac:(lra)) as St.
      assert (0 < r * sin t) as Hq by nra. rewrite sqrt_rsq by lra.
      assert (sqrt (r * sin t * cos p * (r * sin t * cos p) + r * sin t * sin p * (r * sin t * sin p) + r * cos t * (r * cos t)) = r) as ->.
      { apply sqrt_lem_1; [| lra |]; pose proof (sin2_cos2 t) as S1; pose proof (sin2_cos2 p) as S2; unfold Rsqr in *.
        - replace (r * sin t * cos p * (r * sin t * cos p) + r * sin t * sin p * (r * sin t * sin p) + r * cos t * (r * cos t)) with (r * r * (sin t * sin t * (sin p * sin p + cos p * cos p) + cos t * cos t)) by ring. rewrite S2, Rmult_1_r, S1. nra.
        - replace (r * sin t * cos p * (r * sin t * cos p) + r * sin t * sin p * (r * sin t * sin p) + r * cos t * (r * cos t)) with (r * r * (sin t * sin t * (sin p * sin p + cos p * cos p) + cos t * cos t)) by ring. rewrite S2, Rmult_1_r, S1. ring. }
      rewrite (atan2_sincos r t) by lra. rewrite (atan2_sincos (r * sin t) p) by lra. reflexivity. }
    unfold spherical_to_cartesian. destruct dg.
    + cbn in Ht, Hp. assert (0 < rad t < PI) as Ht' by (unfold rad; split; nra). specialize (K (rad t) (rad p) Ht' (rad_az p Hp)). unfold cartesian_to_spherical in *.
      match type of K with (?a, ?b, ?c) = _ => assert (a = r) as -> by congruence; assert (b = rad t) as -> by congruence; assert (c = rad p) as -> by congruence end. now rewrite !deg_rad.
    + apply K; auto.
Qed.
Print Assumptions C28_spherical.
(** cylindrical coordinates with angles in radians *)
Theorem C28_cylindrical : 
  (forall x y z, let '(s, t, z') := cartesian_to_cylindrical x y z false in cylindrical_to_cartesian s t z' false = (x, y, z) /\ 0 <= s /\ - PI < t <= PI) /\
  (forall s t z, 0 < s -> - PI < t <= PI -> let '(x, y, z') := cylindrical_to_cartesian s t z false in cartesian_to_cylindrical x y z' false = (s, t, z)).
Proof.
  destruct (C28_polar false) as (A & B). split.
  - intros x y z. specialize (A x y). unfold cartesian_to_cylindrical, cylindrical_to_cartesian in *. destruct (cartesian_to_polar x y false) as (r, t). destruct A as (E & H1 & H2). rewrite E. auto.
  - intros s t z Hs Ht. specialize (B s t Hs Ht). unfold cartesian_to_cylindrical, cylindrical_to_cartesian in *. destruct (polar_to_cartesian s t false) as (x, y). rewrite B. reflexivity.
Qed.
Print Assumptions C28_cylindrical.
Theorem C28_cylindrical_degrees_refuted : let '(s, t, z) := cartesian_to_cylindrical 0 1 0 true in t = PI / 2 /\ cylindrical_to_cartesian s t z true <> (0, 1, 0).
Proof.
  unfold cartesian_to_cylindrical, cartesian_to_polar, cylindrical_to_cartesian, polar_to_cartesian. assert (atan2 1 0 = PI / 2) as ->.
  { unfold atan2. destruct (Rlt_dec 0 0); [lra|]. destruct (Rlt_dec 0 1); [reflexivity|lra]. }
  split; [reflexivity|]. intros E. injection E as E1 E2. pose proof PI_RGT_0. pose proof PI_4. assert (0 < cos (rad (PI / 2))) as C by (unfold rad; apply cos_gt_0; nra).
  assert (0 < sqrt (0 * 0 + 1 * 1)) by (apply sqrt_lt_R0; lra). nra.
Qed.
Theorem C28_latitude : forall x dg, colatitude_to_latitude (latitude_to_colatitude x dg) dg = x /\ latitude_to_colatitude (colatitude_to_latitude x dg) dg = x /\
  (dg = true -> (-90 <= x <= 90 <-> 0 <= latitude_to_colatitude x dg <= 180)).
Proof. intros x [|]; unfold colatitude_to_latitude, latitude_to_colatitude; split; [lra| |lra|]; split; try lra; try discriminate; intros; lra. Qed.
Print Assumptions C28_latitude.
Example C28_ex : 0 < 2 /\ azimuth true (-90) /\ colatitude true 30 /\ azimuth false PI.
Proof. pose proof PI_RGT_0. cbn. lra. Qed.

(** ** sizes *)
(** An object of size r >= 0 at distance d > 0 subtends the angle whose tangent is r/d; the two functions are inverse to each other. *)
Theorem C28_sizes : forall k d, 0 < k -> 0 < d ->
  (forall r, 0 <= r -> angular_to_physical_size k (physical_to_angular_size k r d) d = Some r /\
     physical_to_angular_size k r d = k * atan (r / d)) /\
  (forall a, 0 <= a < k * (PI / 2) -> exists r, angular_to_physical_size k a d = Some r /\ r = d * tan (a / k) /\ physical_to_angular_size k r d = a).
Proof.
  intros k d Hk Hd. pose proof PI_RGT_0 as Pi.
  assert (forall t, 0 <= t < PI / 2 -> angular_to_physical_size k (k * t) d = Some (d * tan t)) as A.
  { intros t Ht. unfold angular_to_physical_size. replace (k * t / k) with t by (field; lra). pose proof (cos_gt_0 t ltac:(lra) ltac:(lra)) as Ct.
    destruct (Req_EM_T (sin t) 0) as [E|E]. { rewrite Rmult_0_r. unfold tan. rewrite E. f_equal. field. lra. }
    assert (0 < sin t) as St. { assert (0 <= sin t) by (apply sin_ge_0; lra). lra. }
    assert (1 / sin t / sin t - 1 = (cos t / sin t) * (cos t / sin t)) as Eb. { pose proof (sin2_cos2 t) as S. unfold Rsqr in S. replace 1 with (sin t * sin t + cos t * cos t) at 1 by lra. replace 1 with (sin t * sin t / (sin t * sin t)) at 1 by (field; lra). field. lra. }
    assert (0 < cos t / sin t) as Q by (apply Rdiv_lt_0_compat; lra). rewrite Eb. destruct (Req_EM_T (cos t / sin t * (cos t / sin t)) 0) as [Z|_]; [nra|]. rewrite sqrt_square by lra. f_equal. unfold tan. field. lra. }
  assert (forall t, 0 <= t < PI / 2 -> physical_to_angular_size k (d * tan t) d = k * t) as B.
  { intros t Ht. unfold physical_to_angular_size. f_equal. pose proof (cos_gt_0 t ltac:(lra) ltac:(lra)) as Ct.
    assert (sqrt (d * d + d * tan t * (d * tan t)) = d / cos t) as ->.
    { apply sqrt_lem_1; [nra|left; apply Rdiv_lt_0_compat; lra|]. unfold tan. pose proof (sin2_cos2 t) as S. unfold Rsqr in S. replace (d / cos t * (d / cos t)) with (d * d * (sin t * sin t + cos t * cos t) / (cos t * cos t)) by (rewrite S; field; lra). field. lra. }
    replace (d * tan t * / (d / cos t)) with (sin t) by (unfold tan; field; lra). apply asin_sin. lra. }
  split.
  - intros r Hr. set (t := atan (r / d)). assert (0 <= t < PI / 2) as Ht.
    { unfold t. destruct (atan_bound (r / d)). split; [|lra]. destruct (Req_dec r 0) as [->|]; [unfold Rdiv; rewrite Rmult_0_l, atan_0; lra|]. left. rewrite <- atan_0. apply atan_increasing. apply Rdiv_lt_0_compat; lra. }
    assert (r = d * tan t) as Er by (unfold t; rewrite tan_atan; field; lra). rewrite Er at 1 3. rewrite B by auto. rewrite A by auto. split; [now rewrite <- Er|reflexivity].
  - intros a Ha. assert (a = k * (a / k)) as Ea by (field; lra). assert (0 <= a / k < PI / 2) as Ht.
    { assert (0 < / k) by (apply Rinv_0_lt_compat; lra). split; [apply Rmult_le_pos; lra|]. apply (Rmult_lt_reg_l k); [lra|]. rewrite <- Ea. lra. }
    exists (d * tan (a / k)). rewrite Ea at 1. rewrite A by auto. split; [reflexivity|]. split; [reflexivity|]. rewrite B by auto. now rewrite <- Ea.
Qed.
Print Assumptions C28_sizes.
(** The sign of the angle is lost. *)
Theorem C28_negative_size_refuted : forall k d, 0 < k -> 0 < d -> angular_to_physical_size k (physical_to_angular_size k (- d) d) d = Some d.
Proof.
  intros k d Hk Hd. destruct (C28_sizes k d Hk Hd) as (A & _). destruct (A d ltac:(lra)) as (E & _). rewrite <- E.
  unfold angular_to_physical_size, physical_to_angular_size. replace (- d * - d) with (d * d) by ring. replace (- d * / sqrt (d * d + d * d)) with (- (d * / sqrt (d * d + d * d))) by ring.
  rewrite asin_opp. replace (k * - asin (d * / sqrt (d * d + d * d)) / k) with (- (k * asin (d * / sqrt (d * d + d * d)) / k)) by (field; lra). rewrite sin_neg. set (s := sin _).
  destruct (Req_EM_T (- s) 0), (Req_EM_T s 0); try lra; [reflexivity|]. replace (1 / - s / - s - 1) with (1 / s / s - 1) by (field; lra). reflexivity.
Qed.

(** ** geocentric and geographic latitude *)
Lemma boasq_range : 0 < boasq < 1.
Proof. unfold boasq. assert (Reb / Rea = 1 - 1 / (298257223563 / 1000000000)) as -> by (unfold Reb, Rea; field). lra. Qed.
(** Between the poles the two functions are inverse to each other, strictly increasing and odd, and the geocentric latitude is the smaller one in size. *)
Definition between_poles (x : R) : Prop := - (PI / 2) < x < PI / 2.
Theorem C28_geocentric : forall x, between_poles x ->
  geocentric_to_geographic_latitude (geographic_to_geocentric_latitude x) = x /\ geographic_to_geocentric_latitude (geocentric_to_geographic_latitude x) = x /\
  between_poles (geographic_to_geocentric_latitude x) /\ between_poles (geocentric_to_geographic_latitude x) /\
  (forall y, between_poles y -> x < y -> geographic_to_geocentric_latitude x < geographic_to_geocentric_latitude y) /\
  geographic_to_geocentric_latitude (- x) = - geographic_to_geocentric_latitude x /\
  (0 < x -> 0 < geographic_to_geocentric_latitude x < x).
Proof.
  intros x Hx. pose proof boasq_range as Hb. unfold geocentric_to_geographic_latitude, geographic_to_geocentric_latitude.
  assert (forall u, tan (atan u) = u) as Ta by apply tan_atan. split; [|split; [|split; [|split; [|split; [|split]]]]].
  - rewrite Ta. replace (1 / boasq * (boasq * tan x)) with (tan x) by (field; lra). apply atan_tan. apply Hx.
  - rewrite Ta. replace (boasq * (1 / boasq * tan x)) with (tan x) by (field; lra). apply atan_tan. apply Hx.
  - destruct (atan_bound (boasq * tan x)). split; lra.
  - destruct (atan_bound (1 / boasq * tan x)). split; lra.
  - intros y Hy L. apply atan_increasing. apply Rmult_lt_compat_l; [lra|]. apply tan_increasing; unfold between_poles in *; lra.
  - rewrite tan_neg. rewrite <- atan_opp. f_equal. ring.
  - intros P. assert (0 < tan x) as T. { rewrite <- tan_0. apply tan_increasing; unfold between_poles in *; lra. } split.
    + rewrite <- atan_0. apply atan_increasing. nra.
    + rewrite <- (atan_tan x) at 2 by apply Hx. apply atan_increasing. nra.
Qed.
Print Assumptions C28_geocentric.
Example C28_geocentric_ex : between_poles (rad 45). Proof. pose proof PI_RGT_0. unfold between_poles, rad. lra. Qed.
