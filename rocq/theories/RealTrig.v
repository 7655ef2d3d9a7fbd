(** * RealTrig: real arithmetic used by the models: floor, Python %, int(), atan2 *)
From Coq Require Import Reals ZArith Lra Lia Psatz.
Open Scope R_scope.

(** floor, as an integer *)
Definition rfloor (x : R) : Z := Int_part x.
Lemma rfloor_spec x : IZR (rfloor x) <= x < IZR (rfloor x) + 1.
Proof. unfold rfloor. destruct (base_Int_part x). lra. Qed.
Lemma rfloor_unique x n : IZR n <= x < IZR n + 1 -> rfloor x = n.
Proof.
  intros H. pose proof (rfloor_spec x). assert (IZR n < IZR (rfloor x) + 1) as A by lra. assert (IZR (rfloor x) < IZR n + 1) as B by lra.
  rewrite <- plus_IZR in A, B. apply lt_IZR in A, B. lia.
Qed.
Lemma rfloor_IZR n : rfloor (IZR n) = n.
Proof. apply rfloor_unique. lra. Qed.
Lemma rfloor_add_Z x n : rfloor (x + IZR n) = (rfloor x + n)%Z.
Proof. apply rfloor_unique. rewrite plus_IZR. pose proof (rfloor_spec x). lra. Qed.
Lemma rfloor_nonneg x : 0 <= x -> (0 <= rfloor x)%Z.
Proof. intros H. pose proof (rfloor_spec x). assert (IZR (-1) < IZR (rfloor x)) as A by lra. apply lt_IZR in A. lia. Qed.
Lemma rfloor_lt x n : x < IZR n -> (rfloor x < n)%Z.
Proof. intros H. pose proof (rfloor_spec x). apply lt_IZR. lra. Qed.
Lemma rfloor_le x n : IZR n <= x -> (n <= rfloor x)%Z.
Proof. intros H. pose proof (rfloor_spec x). assert (IZR n < IZR (rfloor x + 1)) as A by (rewrite plus_IZR; lra). apply lt_IZR in A. lia. Qed.
Lemma rfloor_mono x y : x <= y -> (rfloor x <= rfloor y)%Z.
Proof. intros H. apply rfloor_le. pose proof (rfloor_spec x). lra. Qed.

(** Python's int(): truncation towards zero *)
Definition pyint (x : R) : Z := if Rlt_dec x 0 then (- rfloor (- x))%Z else rfloor x.
Lemma pyint_nonneg x : 0 <= x -> pyint x = rfloor x.
Proof. intros H. unfold pyint. destruct (Rlt_dec x 0); [lra|reflexivity]. Qed.
Lemma pyint_neg x : x <= 0 -> pyint x = (- rfloor (- x))%Z.
Proof.
  intros H. unfold pyint. destruct (Rlt_dec x 0); [reflexivity|]. replace x with 0 by lra. rewrite Ropp_0, (rfloor_IZR 0). reflexivity.
Qed.

(** Python's float [%] for a positive modulus *)
Definition pymod (x m : R) : R := x - m * IZR (rfloor (x / m)).
Lemma pymod_range x m : 0 < m -> 0 <= pymod x m < m.
Proof.
  intros Hm. unfold pymod. pose proof (rfloor_spec (x / m)) as (H1 & H2). set (n := IZR (rfloor (x / m))) in *.
  assert (x = m * (x / m)) as E by (field; lra). assert (m * n <= m * (x / m)) by (apply Rmult_le_compat_l; lra).
  assert (m * (x / m) < m * (n + 1)) by (apply Rmult_lt_compat_l; lra). lra.
Qed.
Lemma pymod_cong x m : exists k : Z, pymod x m = x + IZR k * m.
Proof. exists (- rfloor (x / m))%Z. unfold pymod. rewrite opp_IZR. ring. Qed.
Lemma pymod_id x m : 0 < m -> 0 <= x < m -> pymod x m = x.
Proof.
  intros Hm Hx. unfold pymod. rewrite (rfloor_unique (x / m) 0); [ring|]. split.
  - apply Rmult_le_pos; [lra|]. left. now apply Rinv_0_lt_compat.
  - apply Rmult_lt_reg_r with m; auto. unfold Rdiv. rewrite Rmult_assoc, Rinv_l; lra.
Qed.
Lemma pymod_shift x m k : 0 < m -> pymod (x + IZR k * m) m = pymod x m.
Proof.
  intros Hm. unfold pymod. replace ((x + IZR k * m) / m) with (x / m + IZR k) by (field; lra).
  rewrite rfloor_add_Z, plus_IZR. ring.
Qed.

(** sine and cosine under multiples of 2 pi *)
Lemma sin_2kpi x (k : Z) : sin (x + IZR k * (2 * PI)) = sin x.
Proof.
  destruct (Z_le_gt_dec 0 k) as [H|H].
  - replace (IZR k * (2 * PI)) with (2 * INR (Z.to_nat k) * PI); [apply sin_period|]. rewrite INR_IZR_INZ, Z2Nat.id by lia. ring.
  - rewrite <- (sin_period (x + IZR k * (2 * PI)) (Z.to_nat (- k))). f_equal. rewrite INR_IZR_INZ, Z2Nat.id by lia. rewrite opp_IZR. ring.
Qed.
Lemma cos_2kpi x (k : Z) : cos (x + IZR k * (2 * PI)) = cos x.
Proof.
  rewrite <- !sin_shift. replace (PI / 2 - (x + IZR k * (2 * PI))) with (PI / 2 - x + IZR (- k) * (2 * PI)) by (rewrite opp_IZR; ring).
  apply sin_2kpi.
Qed.
Lemma sin_pymod x : sin (pymod x (2 * PI)) = sin x.
Proof. destruct (pymod_cong x (2 * PI)) as (k & ->). apply sin_2kpi. Qed.
Lemma cos_pymod x : cos (pymod x (2 * PI)) = cos x.
Proof. destruct (pymod_cong x (2 * PI)) as (k & ->). apply cos_2kpi. Qed.

(** equal sines *)
Lemma sin_eq_cases x y : sin x = sin y -> exists k : Z, x = y + IZR k * (2 * PI) \/ x = PI - y + IZR k * (2 * PI).
Proof.
  intros H. pose proof (form4 x y) as F. rewrite H, Rminus_diag_eq in F by reflexivity.
  symmetry in F. apply Rmult_integral in F. destruct F as [F|F].
  - apply Rmult_integral in F. destruct F as [F|F]; [lra|].
    destruct (cos_eq_0_0 _ F) as (k & E). exists k. right. rewrite <- plus_IZR in * || idtac. lra.
  - destruct (sin_eq_0_0 _ F) as (k & E). exists k. left. lra.
Qed.
(** same sine and cosine: same angle modulo 2 pi *)
Lemma sincos_eq x y : sin x = sin y -> cos x = cos y -> exists k : Z, x = y + IZR k * (2 * PI).
Proof.
  intros Hs Hc. assert (C : cos (x - y) = 1).
  { rewrite cos_minus, Hs, Hc. pose proof (sin2_cos2 y) as S. unfold Rsqr in S. lra. }
  assert (S : sin ((x - y) / 2) = 0).
  { assert (cos (2 * ((x - y) / 2)) = 1) as C2 by (rewrite <- C; f_equal; field). rewrite cos_2a_sin in C2. nra. }
  destruct (sin_eq_0_0 _ S) as (k & E). exists k. lra.
Qed.

(** ** atan2 *)
Definition atan2 (y x : R) : R :=
  if Rlt_dec 0 x then atan (y / x)
  else if Rlt_dec x 0 then (if Rle_dec 0 y then atan (y / x) + PI else atan (y / x) - PI)
  else if Rlt_dec 0 y then PI / 2 else if Rlt_dec y 0 then - (PI / 2) else 0.

Lemma cos_atan_pos a : 0 < cos (atan a).
Proof. destruct (atan_bound a). apply cos_gt_0; lra. Qed.
Lemma sqrt_sqr_sum x y r : 0 <= r -> r * r = x * x + y * y -> sqrt (x * x + y * y) = r.
Proof. intros H E. rewrite <- E. apply sqrt_square; auto. Qed.
Lemma atan_polar x y : x <> 0 -> y / x * cos (atan (y / x)) = sin (atan (y / x)).
Proof.
  intros Hx. pose proof (cos_atan_pos (y / x)) as Hc. rewrite <- (tan_atan (y / x)) at 1. unfold tan. field. lra.
Qed.
Lemma atan2_polar x y : let r := sqrt (x * x + y * y) in x = r * cos (atan2 y x) /\ y = r * sin (atan2 y x).
Proof.
  cbv zeta. unfold atan2. set (t := atan (y / x)).
  destruct (Rlt_dec 0 x) as [Hx|Hx].
  - pose proof (cos_atan_pos (y / x)) as Hc. fold t in Hc. pose proof (atan_polar x y ltac:(lra)) as Hs. fold t in Hs.
    assert (E : sqrt (x * x + y * y) = x / cos t).
    { apply sqrt_sqr_sum; [apply Rlt_le, Rdiv_lt_0_compat; lra|]. pose proof (sin2_cos2 t) as S. unfold Rsqr in S.
      assert (y = x * (sin t / cos t)) as Ey by (rewrite <- Hs; field; lra).
      rewrite Ey. replace (x * x + x * (sin t / cos t) * (x * (sin t / cos t))) with (x * x * ((sin t * sin t + cos t * cos t) / (cos t * cos t))) by (field; lra).
      rewrite S. field. lra. }
    rewrite E. split; [field; lra|]. rewrite <- Hs. field. split; lra.
  - destruct (Rlt_dec x 0) as [Hx'|Hx'].
    + pose proof (cos_atan_pos (y / x)) as Hc. fold t in Hc. pose proof (atan_polar x y ltac:(lra)) as Hs. fold t in Hs.
      assert (E : sqrt (x * x + y * y) = - x / cos t).
      { apply sqrt_sqr_sum; [apply Rlt_le, Rdiv_lt_0_compat; lra|]. pose proof (sin2_cos2 t) as S. unfold Rsqr in S.
        assert (y = x * (sin t / cos t)) as Ey by (rewrite <- Hs; field; lra).
        rewrite Ey. replace (x * x + x * (sin t / cos t) * (x * (sin t / cos t))) with (x * x * ((sin t * sin t + cos t * cos t) / (cos t * cos t))) by (field; lra).
        rewrite S. field. lra. }
      rewrite E. destruct (Rle_dec 0 y).
      * rewrite neg_cos, neg_sin. split; [field; lra|]. rewrite <- Hs. field. split; lra.
      * replace (t - PI) with (- (PI - t)) by ring. rewrite cos_neg, sin_antisym, Rtrigo_facts.cos_pi_minus, Rtrigo_facts.sin_pi_minus.
        split; [field; lra|]. rewrite <- Hs. field. split; lra.
    + assert (x = 0) as -> by lra. replace (0 * 0 + y * y) with (y * y) by ring.
      destruct (Rlt_dec 0 y); [|destruct (Rlt_dec y 0)].
      * rewrite sqrt_square by lra. rewrite cos_PI2, sin_PI2. lra.
      * replace (y * y) with ((- y) * (- y)) by ring. rewrite sqrt_square by lra. rewrite cos_neg, sin_antisym, cos_PI2, sin_PI2. lra.
      * assert (y = 0) as -> by lra. rewrite Rmult_0_r, sqrt_0. lra.
Qed.
Lemma atan2_range y x : - PI < atan2 y x <= PI.
Proof.
  pose proof PI_RGT_0. unfold atan2. destruct (atan_bound (y / x)) as (A & B).
  destruct (Rlt_dec 0 x) as [Hx|Hx]; [lra|]. destruct (Rlt_dec x 0) as [Hx'|Hx'].
  - destruct (Rle_dec 0 y) as [Hy|Hy].
    + assert (atan (y / x) <= 0); [|lra]. destruct (Req_dec y 0) as [->|Hy0].
      * unfold Rdiv. rewrite Rmult_0_l, atan_0. lra.
      * left. rewrite <- atan_0. apply atan_increasing. unfold Rdiv. assert (/ x < 0) by (apply Rinv_lt_0_compat; auto). nra.
    + assert (0 < atan (y / x)); [|lra]. rewrite <- atan_0. apply atan_increasing. unfold Rdiv.
      assert (/ x < 0) by (apply Rinv_lt_0_compat; auto). nra.
  - destruct (Rlt_dec 0 y); [lra|]. destruct (Rlt_dec y 0); lra.
Qed.
(** with a non-negative second argument, as used for latitudes *)
Lemma atan2_half y x : 0 <= x -> - (PI / 2) <= atan2 y x <= PI / 2.
Proof.
  intros Hx. pose proof PI_RGT_0. unfold atan2. destruct (atan_bound (y / x)).
  destruct (Rlt_dec 0 x); [lra|]. destruct (Rlt_dec x 0); [lra|]. destruct (Rlt_dec 0 y); [lra|]. destruct (Rlt_dec y 0); lra.
Qed.
(** the angle is determined by its direction *)
Lemma atan2_sincos r t : 0 < r -> - PI < t <= PI -> atan2 (r * sin t) (r * cos t) = t.
Proof.
  intros Hr Ht. destruct (atan2_polar (r * cos t) (r * sin t)) as (Hx & Hy).
  replace (r * cos t * (r * cos t) + r * sin t * (r * sin t)) with (r * r * (sin t * sin t + cos t * cos t)) in * by ring.
  pose proof (sin2_cos2 t) as S. unfold Rsqr in S. rewrite S, Rmult_1_r, sqrt_square in * by lra.
  set (u := atan2 (r * sin t) (r * cos t)) in *. pose proof (atan2_range (r * sin t) (r * cos t)) as Hu. fold u in Hu.
  apply Rmult_eq_reg_l in Hx, Hy; try lra.
  destruct (sincos_eq t u Hy Hx) as (k & E). pose proof PI_RGT_0.
  assert (k = 0%Z) as ->; [|lra].
  assert (-1 < IZR k < 1) as (K1 & K2) by (split; nra). apply lt_IZR in K1, K2. lia.
Qed.

(** ** degrees and radians *)
Definition rad (d : R) : R := d * PI / 180.
Definition deg (r : R) : R := r * 180 / PI.
Lemma deg_rad d : deg (rad d) = d.
Proof. unfold deg, rad. field. apply PI_neq0. Qed.
Lemma rad_deg r : rad (deg r) = r.
Proof. unfold deg, rad. field. apply PI_neq0. Qed.
