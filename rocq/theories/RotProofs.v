(** * RotProofs: rotation matrices *)
From Coq Require Import Reals ZArith Lra Lia Psatz List Bool.
From Verif Require Import PyBase RealTrig AngleModel AngleProofs SphereModel SphereProofs.
Open Scope R_scope.

(** specification: the rotation of vectors by [th] about the unit vector [k], right-handed (Rodrigues) *)
Definition cross (u v : vec) : vec := V (vy u * vz v - vz u * vy v) (vz u * vx v - vx u * vz v) (vx u * vy v - vy u * vx v).
Definition vadd (u v : vec) : vec := V (vx u + vx v) (vy u + vy v) (vz u + vz v).
Definition rodrigues (th : R) (k v : vec) : vec :=
  vadd (vadd (scale (cos th) v) (scale (sin th) (cross k v))) (scale ((1 - cos th) * dot k v) k).
Definition axis_vec (ax : axis) : vec := match ax with AX => V 1 0 0 | AY => V 0 1 0 | AZ => V 0 0 1 | AV x y z => V x y z end.
Definition is_rotation (m : mat) : Prop := orthogonal m /\ det m = 1.
Definition normalise (v : vec) : vec := scale (/ sqrt (dot v v)) v.

Lemma sc1 a : sin a * sin a + cos a * cos a = 1.
Proof. pose proof (sin2_cos2 a). unfold Rsqr in *. lra. Qed.

Definition quat (w x y z : R) : mat := M (w*w + x*x - y*y - z*z) (2*x*y - 2*w*z) (2*x*z + 2*w*y)
                               (2*x*y + 2*w*z) (w*w - x*x + y*y - z*z) (2*y*z - 2*w*x)
                               (2*x*z - 2*w*y) (2*y*z + 2*w*x) (w*w - x*x - y*y + z*z).
Lemma quat_rotation w x y z : w*w + x*x + y*y + z*z = 1 -> is_rotation (quat w x y z).
Proof.
  intros H. assert (W : w*w = 1 - x*x - y*y - z*z) by lra. split.
  - apply mat_eq; cbn; ring [W].
  - unfold det, quat; cbn. ring [W].
Qed.
Lemma quat_rodrigues w s k v : w * w + s * s = 1 -> dot k k = 1 ->
  mv (quat w (s * vx k) (s * vy k) (s * vz k)) v = 
  vadd (vadd (scale (w * w - s * s) v) (scale (2 * w * s) (cross k v))) (scale ((1 - (w * w - s * s)) * dot k v) k).
Proof.
  intros H K. unfold dot in K. assert (W : w * w = 1 - s * s) by lra. assert (Z : vz k * vz k = 1 - vx k * vx k - vy k * vy k) by lra.
  apply vec_eq; unfold dot; cbn; ring [W Z].
Qed.
(** The matrix for an axis vector is the one of the quaternion (cos(a/2), |sin(a/2)| axis/|axis|). *)
Lemma rot_axis_eq a x y z (d : bool) : let t := if d then rad a else a in (x, y, z) <> (0, 0, 0) -> sin (t / 2) <> 0 ->
  let k := normalise (V x y z) in let s := Rabs (sin (t / 2)) in
  rotation_matrix a (AV x y z) d = Ok (quat (cos (t / 2)) (s * vx k) (s * vy k) (s * vz k)) /\ dot k k = 1.
Proof.
  intros t Hn Hs k s. assert (Hp : 0 < dot (V x y z) (V x y z)). { apply dot_pos. intros E. apply Hn. injection E as -> -> ->. reflexivity. }
  assert (Hq : 0 < sqrt (dot (V x y z) (V x y z))) by now apply sqrt_lt_R0.
  assert (K1 : dot k k = 1).
  { unfold k, normalise, scale, dot. cbn [vx vy vz]. fold (dot (V x y z) (V x y z)). set (q := sqrt _) in *.
    assert (q * q = x * x + y * y + z * z) as Q by (unfold q; rewrite sqrt_sqrt; [reflexivity|left; exact Hp]).
    replace (/ q * x * (/ q * x) + / q * y * (/ q * y) + / q * z * (/ q * z)) with ((x * x + y * y + z * z) / (q * q)) by (field; lra). rewrite <- Q. field; lra. }
  split; [|exact K1]. unfold rotation_matrix. fold t. set (w := cos (t / 2)).
  assert (W : 1 - w * w = s * s). { unfold w, s. rewrite <- Rabs_mult, Rabs_pos_eq by nra. pose proof (sc1 (t / 2)). lra. }
  assert (S : 0 < s) by now apply Rabs_pos_lt.
  destruct (Req_EM_T w 1) as [E|_]; [exfalso; nra|]. destruct (Req_EM_T (1 - w * w) 0) as [E|_]; [exfalso; nra|].
  rewrite W. assert (L : sqrt ((x * x + y * y + z * z) / (s * s)) = sqrt (dot (V x y z) (V x y z)) / s).
  { unfold dot; cbn. rewrite sqrt_div by nra. rewrite sqrt_square by lra. reflexivity. }
  rewrite L. set (q := sqrt _) in *. destruct (Req_EM_T (q / s) 0) as [E|_].
  { exfalso. assert (q = 0); [|lra]. replace q with (q / s * s) by (field; lra). rewrite E. ring. }
  assert (forall u, u / (q / s) = s * (/ q * u)) as D by (intros; field; split; lra). rewrite !D. reflexivity.
Qed.
Lemma dot_normalise v : v <> V 0 0 0 -> scale (sqrt (dot v v)) (normalise v) = v.
Proof.
  intros H. pose proof (dot_pos v H) as P. assert (0 < sqrt (dot v v)) by now apply sqrt_lt_R0. unfold normalise. apply vec_eq; cbn; field; lra.
Qed.
Lemma cos_half t : cos (t / 2) * cos (t / 2) - sin (t / 2) * sin (t / 2) = cos t.
Proof. replace t with (2 * (t / 2)) at 5 by field. rewrite cos_2a. ring. Qed.
Lemma sin_half t : 2 * cos (t / 2) * sin (t / 2) = sin t.
Proof. replace t with (2 * (t / 2)) at 3 by field. rewrite sin_2a. ring. Qed.

Lemma rot_axis_rodrigues a x y z : 0 < a < 2 * PI -> (x, y, z) <> (0, 0, 0) ->
  exists m, rotation_matrix a (AV x y z) false = Ok m /\ forall v, mv m v = rodrigues a (normalise (V x y z)) v.
Proof.
  intros Ha Hn. assert (S : 0 < sin (a / 2)) by (apply sin_gt_0; lra).
  destruct (rot_axis_eq a x y z false Hn ltac:(lra)) as (E & K). eexists. split; [exact E|]. intros v.
  rewrite Rabs_pos_eq by lra. rewrite quat_rodrigues; [|pose proof (sc1 (a / 2)); lra|exact K].
  rewrite cos_half, sin_half. reflexivity.
Qed.
Lemma rot_axis_rotation a x y z m : rotation_matrix a (AV x y z) false = Ok m -> 
  is_rotation m /\ mv m (V x y z) = V x y z /\ m00 m + m11 m + m22 m = 1 + 2 * cos a.
Proof.
  intros E. destruct (Req_dec (sin (a / 2)) 0) as [Z|Hs].
  - (* w = 1: the identity; w = -1 raises *)
    unfold rotation_matrix in E. pose proof (sc1 (a / 2)) as S. rewrite Z in S. pose proof (cos_half a) as Ch. rewrite Z in Ch.
    destruct (Req_EM_T (cos (a / 2)) 1) as [W|W].
    + injection E as <-. rewrite W in *. repeat split; try (apply mat_eq; cbn; ring); try (unfold det; cbn; ring).
      * apply vec_eq; cbn; ring.
      * cbn. lra.
    + destruct (Req_EM_T _ 0) as [|N]; [discriminate|]. exfalso. lra.
  - assert ((x, y, z) <> (0, 0, 0)) as Hn.
    { intros H. injection H as -> -> ->. unfold rotation_matrix in E. pose proof (sc1 (a / 2)) as S.
      destruct (Req_EM_T (cos (a / 2)) 1) as [W|W]; [nra|]. destruct (Req_EM_T _ 0) as [|N]; [discriminate|].
      replace ((0 * 0 + 0 * 0 + 0 * 0) / (1 - cos (a / 2) * cos (a / 2))) with 0 in E by (field; lra). rewrite sqrt_0 in E. destruct (Req_EM_T 0 0); [discriminate|lra]. }
    destruct (rot_axis_eq a x y z false Hn Hs) as (E2 & K). cbv iota in E2. rewrite E in E2.
    assert (m = quat (cos (a / 2)) (Rabs (sin (a / 2)) * vx (normalise (V x y z))) (Rabs (sin (a / 2)) * vy (normalise (V x y z))) (Rabs (sin (a / 2)) * vz (normalise (V x y z)))) as -> by congruence.
    set (k := normalise (V x y z)) in *. set (s := Rabs (sin (a / 2))) in *.
    assert (SS : s * s = sin (a / 2) * sin (a / 2)) by (unfold s; rewrite <- Rabs_mult, Rabs_pos_eq; nra).
    pose proof (sc1 (a / 2)) as S. pose proof (cos_half a) as Ch. set (w := cos (a / 2)) in *. unfold dot in K.
    assert (Q : w * w + s * vx k * (s * vx k) + s * vy k * (s * vy k) + s * vz k * (s * vz k) = 1).
    { replace (w * w + s * vx k * (s * vx k) + s * vy k * (s * vy k) + s * vz k * (s * vz k)) with (w * w + s * s * (vx k * vx k + vy k * vy k + vz k * vz k)) by ring. rewrite K. lra. }
    split; [now apply quat_rotation|]. split.
    + rewrite quat_rodrigues; [|lra|exact K].
      assert (Hv : V x y z <> V 0 0 0) by (intros H; injection H as -> -> ->; auto). pose proof (dot_normalise _ Hv) as Hk. fold k in Hk. clearbody k.
      set (n := sqrt (dot (V x y z) (V x y z))) in *. rewrite <- Hk. 
      assert (dot k (scale n k) = n) as -> by (unfold dot; cbn; replace (vx k * (n * vx k) + vy k * (n * vy k) + vz k * (n * vz k)) with (n * (vx k * vx k + vy k * vy k + vz k * vz k)) by ring; rewrite K; ring).
      apply vec_eq; cbn; ring.
    + clearbody k w s. cbn. assert (forall p q r : R, w * w + p * p - q * q - r * r + (w * w - p * p + q * q - r * r) + (w * w - p * p - q * q + r * r) = 4 * (w * w) - (w * w + p * p + q * q + r * r)) as F by (intros; ring).
      rewrite F, Q. nra.
Qed.
(** x, y, z axes *)
Lemma rot_letter_rotation a ax m : (forall x y z, ax <> AV x y z) -> rotation_matrix a ax false = Ok m ->
  is_rotation m /\ forall v, mv m v = rodrigues (- a) (axis_vec ax) v.
Proof.
  intros Hl E. pose proof (sc1 a) as S. assert (S2 : sin a * sin a = 1 - cos a * cos a) by lra.
  destruct ax; [| | |exfalso; eapply Hl; reflexivity]; injection E as <-; (split; [split; [apply mat_eq; cbn; ring [S2]|unfold det; cbn; ring [S2]]|]);
  intros v; unfold rodrigues, dot, cross, vadd, scale; cbn; rewrite cos_neg, sin_neg; apply vec_eq; cbn; ring.
Qed.
Lemma rot_letter_add a b ax : (forall x y z, ax <> AV x y z) -> 
  exists m n p, rotation_matrix a ax false = Ok m /\ rotation_matrix b ax false = Ok n /\ rotation_matrix (a + b) ax false = Ok p /\ mm m n = p.
Proof.
  intros Hl. destruct ax; [| | |exfalso; eapply Hl; reflexivity]; unfold rotation_matrix; cbv zeta iota; do 3 eexists; (split; [reflexivity|]); (split; [reflexivity|]); (split; [reflexivity|]);
  rewrite sin_plus, cos_plus; apply mat_eq; cbn; ring.
Qed.
Lemma rot_letter_inverse a ax : (forall x y z, ax <> AV x y z) -> 
  exists m n, rotation_matrix a ax false = Ok m /\ rotation_matrix (- a) ax false = Ok n /\ n = tr m /\ mm m n = idm /\ mm n m = idm.
Proof.
  intros Hl. pose proof (sc1 a) as S. assert (S2 : sin a * sin a = 1 - cos a * cos a) by lra. 
  destruct ax; [| | |exfalso; eapply Hl; reflexivity]; unfold rotation_matrix; cbv zeta iota; do 2 eexists; (split; [reflexivity|]); (split; [reflexivity|]);
  rewrite sin_neg, cos_neg; repeat split; apply mat_eq; cbn; ring [S2].
Qed.
Lemma angle_axis_rot a x y z d : 0 < a < PI -> 0 < x + y + z ->
  exists m, rotation_matrix a (AV x y z) false = Ok m /\ angle_axis m d = Ok (deg a, Some (normalise (V x y z))).
Proof.
  intros Ha Hs. assert (Hn : (x, y, z) <> (0, 0, 0)). { intros E. injection E as -> -> ->. lra. }
  assert (S : 0 < sin (a / 2)) by (apply sin_gt_0; lra). assert (W : 0 < cos (a / 2)) by (apply cos_gt_0; lra).
  destruct (rot_axis_eq a x y z false Hn ltac:(lra)) as (E & K). cbv zeta iota in E. rewrite Rabs_pos_eq in E by lra. eexists. split; [exact E|].
  destruct (rot_axis_rotation a x y z _ E) as (_ & _ & T). set (m := quat _ _ _ _) in *.
  unfold angle_axis. rewrite T. replace ((1 + 2 * cos a - 1) / 2) with (cos a) by field.
  destruct (Rlt_dec 1 (Rabs (cos a))) as [B|_].
  { exfalso. pose proof (COS_bound a). unfold Rabs in B. destruct (Rcase_abs (cos a)); lra. }
  rewrite acos_cos by lra. set (k := normalise (V x y z)) in *. set (f := 4 * cos (a / 2) * sin (a / 2)).
  assert (F : 0 < f) by (unfold f; nra).
  replace (m21 m - m12 m) with (f * vx k) by (unfold m, f; cbn; ring). replace (m02 m - m20 m) with (f * vy k) by (unfold m, f; cbn; ring).
  replace (m10 m - m01 m) with (f * vz k) by (unfold m, f; cbn; ring).
  assert (Hv : V x y z <> V 0 0 0) by (intros H; injection H as -> -> ->; auto). pose proof (dot_pos _ Hv) as P.
  assert (Q : 0 < sqrt (dot (V x y z) (V x y z))) by now apply sqrt_lt_R0.
  assert (Sk : 0 < vx k + vy k + vz k). { unfold k, normalise, scale; cbn [vx vy vz]. rewrite <- !Rmult_plus_distr_l. apply Rmult_lt_0_compat; [now apply Rinv_0_lt_compat|exact Hs]. }
  set (d2 := 2 * (f * vx k + f * vy k + f * vz k)). assert (D : 0 < d2) by (unfold d2; nra).
  destruct (Rlt_dec d2 0); [lra|]. destruct (Req_EM_T d2 0); [lra|]. assert (R : 0 < sqrt d2) by now apply sqrt_lt_R0. set (r := sqrt d2) in *.
  assert (N : sqrt (f * vx k / r * (f * vx k / r) + f * vy k / r * (f * vy k / r) + f * vz k / r * (f * vz k / r)) = f / r).
  { replace (f * vx k / r * (f * vx k / r) + f * vy k / r * (f * vy k / r) + f * vz k / r * (f * vz k / r)) with ((f / r) * (f / r) * dot k k) by (unfold dot; field; lra).
    rewrite K, Rmult_1_r. apply sqrt_square. left. apply Rdiv_lt_0_compat; lra. }
  rewrite N. do 3 f_equal. apply vec_eq; cbn [vx vy vz]; field; split; lra.
Qed.
