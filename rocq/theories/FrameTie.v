(** * FrameTie: C121, FK4 to FK5 nearly keeps separations; the frame bias and the ICRS to FK5 rotation are small *)
From Coq Require Import Reals ZArith Lra Lia Psatz List Bool.
From Verif Require Import PyBase RealTrig AngleModel AngleProofs SphereModel SphereProofs RotProofs SphereProps FrameModel FrameProof FrameEpoch.
Import ListNotations.
Open Scope R_scope.

Lemma abs_between x k : Rabs x <= k -> - k <= x <= k.
Proof. intros H. pose proof (Rle_abs x). pose proof (Rle_abs (- x)). rewrite Rabs_Ropp in *. lra. Qed.
Lemma sq3 a b c : 0 <= a * a + b * b + c * c.
Proof. pose proof (Rle_0_sqr a). pose proof (Rle_0_sqr b). pose proof (Rle_0_sqr c). unfold Rsqr in *. lra. Qed.
Lemma abs_le_1 x y z : x * x + y * y + z * z = 1 -> Rabs x <= 1 /\ Rabs y <= 1 /\ Rabs z <= 1.
Proof. intros H. repeat split; apply Rabs_le; nra. Qed.
Lemma prod_le d u v k : Rabs d <= k -> Rabs u <= 1 -> Rabs v <= 1 -> Rabs (d * (u * v)) <= k.
Proof. intros. rewrite !Rabs_mult. pose proof (Rabs_pos d). pose proof (Rabs_pos u). pose proof (Rabs_pos v). assert (Rabs u * Rabs v <= 1) by nra. assert (0 <= Rabs u * Rabs v) by (apply Rmult_le_pos; assumption). set (x := Rabs u * Rabs v) in *. nra. Qed.
Definition entries_within (k : R) (a : mat) : Prop :=
  Rabs (m00 a) <= k /\ Rabs (m01 a) <= k /\ Rabs (m02 a) <= k /\ Rabs (m10 a) <= k /\ Rabs (m11 a) <= k /\ Rabs (m12 a) <= k /\ Rabs (m20 a) <= k /\ Rabs (m21 a) <= k /\ Rabs (m22 a) <= k.
Definition msub (a b : mat) : mat := M (m00 a - m00 b) (m01 a - m01 b) (m02 a - m02 b) (m10 a - m10 b) (m11 a - m11 b) (m12 a - m12 b) (m20 a - m20 b) (m21 a - m21 b) (m22 a - m22 b).
Lemma nearly_dot m k u v : entries_within k (msub (mm (tr m) m) idm) -> dot u u = 1 -> dot v v = 1 -> Rabs (dot (mv m u) (mv m v) - dot u v) <= 9 * k.
Proof.
  intros (A & B & C & D & E & F & G & H & I) U V. destruct u as [u1 u2 u3], v as [v1 v2 v3]. unfold dot in *. cbn [vx vy vz] in U, V. destruct (abs_le_1 _ _ _ U) as (U1 & U2 & U3). destruct (abs_le_1 _ _ _ V) as (V1 & V2 & V3).
  match goal with |- Rabs ?x <= _ => replace x with (m00 (msub (mm (tr m) m) idm) * (u1 * v1) + m01 (msub (mm (tr m) m) idm) * (u1 * v2) + m02 (msub (mm (tr m) m) idm) * (u1 * v3) + m10 (msub (mm (tr m) m) idm) * (u2 * v1) + m11 (msub (mm (tr m) m) idm) * (u2 * v2) + m12 (msub (mm (tr m) m) idm) * (u2 * v3) + m20 (msub (mm (tr m) m) idm) * (u3 * v1) + m21 (msub (mm (tr m) m) idm) * (u3 * v2) + m22 (msub (mm (tr m) m) idm) * (u3 * v3)) by (destruct m; cbn; ring) end.
  pose proof (prod_le _ _ _ _ A U1 V1) as P1. pose proof (prod_le _ _ _ _ B U1 V2) as P2. pose proof (prod_le _ _ _ _ C U1 V3) as P3. pose proof (prod_le _ _ _ _ D U2 V1) as P4. pose proof (prod_le _ _ _ _ E U2 V2) as P5. pose proof (prod_le _ _ _ _ F U2 V3) as P6. pose proof (prod_le _ _ _ _ G U3 V1) as P7. pose proof (prod_le _ _ _ _ H U3 V2) as P8. pose proof (prod_le _ _ _ _ I U3 V3) as P9.
  repeat match goal with |- context [?a * (?b * ?c)] => let x := fresh "x" in set (x := a * (b * c)) in * end. clearbody x x0 x1 x2 x3 x4 x5 x6 x7.
  apply Rabs_le. clear A B C D E F G H I U1 U2 U3 V1 V2 V3. repeat match goal with H : Rabs ?y <= k |- _ => apply abs_between in H end. lra.
Qed.
Lemma cauchy a b : -1 <= dot (dir a) (dir b) <= 1.
Proof. pose proof (dot_unit (decval (lat a)) (decval (long a))) as U. pose proof (dot_unit (decval (lat b)) (decval (long b))) as V. fold (dir a) in U. fold (dir b) in V. destruct (dir a) as [x y z], (dir b) as [p q r]. unfold dot in *. cbn [vx vy vz] in *. assert (0 <= (x - p) * (x - p) + (y - q) * (y - q) + (z - r) * (z - r)) by apply sq3. assert (0 <= (x + p) * (x + p) + (y + q) * (y + q) + (z + r) * (z + r)) by apply sq3. lra. Qed.
(** a nearly orthogonal matrix nearly keeps the scalar products of the normalised vectors *)
Lemma nearly_kept m k u v a b : entries_within k (msub (mm (tr m) m) idm) -> 0 <= 9 * k <= 1 -> dot u u = 1 -> dot v v = 1 -> scale (length (mv m u)) (dir a) = mv m u -> scale (length (mv m v)) (dir b) = mv m v -> Rabs (dot (dir a) (dir b) - dot u v) <= 36 * k.
Proof.
  intros K Hk U V A B. pose proof (nearly_dot m k u v K U V) as N. pose proof (nearly_dot m k u u K U U) as Nu. pose proof (nearly_dot m k v v K V V) as Nv. rewrite U in Nu. rewrite V in Nv. rewrite <- A, <- B in N. 
  assert (Lu : length (mv m u) * length (mv m u) = dot (mv m u) (mv m u)) by (unfold length; apply sqrt_sqrt; unfold dot; nra). assert (Lv : length (mv m v) * length (mv m v) = dot (mv m v) (mv m v)) by (unfold length; apply sqrt_sqrt; unfold dot; nra). rewrite <- Lu in Nu. rewrite <- Lv in Nv. assert (Pp : 0 <= length (mv m u)) by apply sqrt_pos. assert (Pq : 0 <= length (mv m v)) by apply sqrt_pos. pose proof (cauchy a b) as Cb.
  set (p := length (mv m u)) in *. set (q := length (mv m v)) in *. clearbody p q. clear A B Lu Lv. replace (dot (scale p (dir a)) (scale q (dir b))) with (p * q * dot (dir a) (dir b)) in N by (unfold dot, scale; cbn [vx vy vz]; ring). set (D := dot (dir a) (dir b)) in *. set (s := dot u v) in *. clearbody D s. set (h := 9 * k) in *. replace (36 * k) with (4 * h) by (unfold h; ring). clearbody h. apply abs_between in N. apply abs_between in Nu. apply abs_between in Nv.
  assert (Hp : - h <= p - 1 <= h) by (split; nra). assert (Hq : - h <= q - 1 <= h) by (split; nra). assert (Hpq : - (3 * h) <= 1 - p * q <= 3 * h) by (split; nra). apply Rabs_le. replace (D - s) with ((p * q * D - s) + D * (1 - p * q)) by ring. set (w := 1 - p * q) in *. assert (- (3 * h) <= D * w <= 3 * h) by (clearbody w; split; nra). lra.
Qed.
Lemma murray_near : entries_within 5e-17 (msub (mm (tr murray) murray) idm).
Proof. unfold entries_within, msub, murray. cbn [mm tr idm m00 m01 m02 m10 m11 m12 m20 m21 m22]. repeat split; apply Rabs_le; lra. Qed.
Lemma murrayT_near T : -10 <= T <= 11 -> entries_within 7.2e-10 (msub (mm (tr (murrayT T)) (murrayT T)) idm).
Proof.
  intros H. assert (T2 : 0 <= T * T <= 121) by (split; [nra|assert (0 <= (11 - T) * (11 + T)) by (apply Rmult_le_pos; lra); lra]).
  unfold entries_within, msub, murrayT, murray. cbn [mm tr idm m00 m01 m02 m10 m11 m12 m20 m21 m22]. set (a := T * T) in *.
  repeat split; apply Rabs_le; match goal with |- _ <= ?e <= _ => ring_simplify e end; replace (T ^ 2) with a by (unfold a; ring); clearbody a; lra.
Qed.
Section Frames.
Variables eps dpsi deps cio eqo era gst xp yp : R -> R.
Notation convert := (convert eps dpsi deps cio eqo era gst xp yp). Notation trans := (trans eps dpsi deps cio eqo era gst xp yp).
Theorem fk4_nearly_kept a b : good (at_ a) -> good (at_ b) -> fr a = FK4 -> fr b = FK4 -> ep a = ep b -> exists a' b', convert a [FK5] = Ok a' /\ convert b [FK5] = Ok b' /\
  (ep a = None \/ ep a = Some 1950 -> Rabs (dot (dir (at_ a')) (dir (at_ b')) - dot (dir (at_ a)) (dir (at_ b))) <= 2e-15) /\
  (forall y, ep a = Some y -> 1000 <= y <= 3000 -> Rabs (dot (dir (at_ a')) (dir (at_ b')) - dot (dir (at_ a)) (dir (at_ b))) <= 3e-8).
Proof.
  intros Ga Gb Fa Fb E. assert (Ta : trans (fr a) FK5 (ep a) = Some (Ok (fk4_fk5 (ep a)))) by now rewrite Fa. assert (Tb : trans (fr b) FK5 (ep b) = Some (Ok (fk4_fk5 (ep a)))) by (rewrite Fb, E; reflexivity).
  destruct (convert_one _ _ _ _ _ _ _ _ _ a FK5 _ Ga Ta) as (a' & Ea & _ & _ & _ & Da & _). destruct (convert_one _ _ _ _ _ _ _ _ _ b FK5 _ Gb Tb) as (b' & Eb & _ & _ & _ & Db & _). exists a', b'. split; [exact Ea|]. split; [exact Eb|].
  assert (K1 : ep a = None \/ ep a = Some 1950 -> Rabs (dot (dir (at_ a')) (dir (at_ b')) - dot (dir (at_ a)) (dir (at_ b))) <= 36 * 5e-17). { intros H. assert (X : fk4_fk5 (ep a) = murray) by (destruct H as [-> | ->]; unfold fk4_fk5; [reflexivity|destruct (Req_EM_T 1950 1950); [reflexivity|lra]]). rewrite X in Da, Db. apply (nearly_kept murray _ _ _ _ _ murray_near); try assumption; try apply dot_unit. lra. }
  split; [intros H; specialize (K1 H); lra|]. intros y Ey Hy. destruct (Req_EM_T y 1950) as [-> |N]; [specialize (K1 (or_intror Ey)); lra|]. rewrite Ey in Da, Db. unfold fk4_fk5 in Da, Db. destruct (Req_EM_T y 1950); [contradiction|]. cbv zeta in Da, Db. rewrite mv_mm in Da, Db. set (T := (2000 + ((y - 1900) * 365.242198781 + 2415020.31352 - 2451545) / 365.25 - 1950) / 100) in *. assert (HT : -10 <= T <= 11) by (unfold T; lra). clearbody T.
  pose proof (precB_orth y 1950) as O. assert (Q : dot (mv (precB y 1950) (dir (at_ a))) (mv (precB y 1950) (dir (at_ b))) = dot (dir (at_ a)) (dir (at_ b))) by now apply orth_dot. rewrite <- Q. eapply Rle_trans; [apply (nearly_kept (murrayT T) 7.2e-10 _ _ _ _ (murrayT_near T HT)); try assumption; try (rewrite orth_dot by exact O; apply dot_unit); lra|lra].
Qed.
(** ** Small rotations *)
Lemma rot_small ax d v : (forall x y z, ax <> AV x y z) -> dot v v = 1 -> 0 <= d * PI / 180 <= PI \/ 0 <= - d * PI / 180 <= PI -> acos (dot v (mv (rot ax d) v)) <= Rabs d * PI / 180.
Proof.
  intros N U H. pose proof PI_RGT_0 as P. assert (C : cos (Rabs d * PI / 180) = cos (rad d)). { unfold rad. destruct H; [rewrite Rabs_pos_eq by (apply Rnot_lt_le; intros X; nra); f_equal; field|rewrite Rabs_left1 by (apply Rnot_lt_le; intros X; nra); rewrite <- cos_neg; f_equal; field]. }
  assert (B : 0 <= Rabs d * PI / 180 <= PI) by (destruct H; [rewrite Rabs_pos_eq by (apply Rnot_lt_le; intros X; nra); lra|rewrite Rabs_left1 by (apply Rnot_lt_le; intros X; nra); lra]).
  rewrite <- (acos_cos (Rabs d * PI / 180)) by exact B. rewrite C. pose proof (COS_bound (rad d)) as Cb. assert (Uv : dot (mv (rot ax d) v) (mv (rot ax d) v) = 1) by (rewrite orth_dot; [exact U|now apply rot_orth]).
  assert (L : cos (rad d) <= dot v (mv (rot ax d) v) <= 1). { split.
    - destruct v as [a b c]. unfold rot. set (s := sin (rad d)). set (k := cos (rad d)) in *. unfold dot in *. cbn [vx vy vz] in U. assert (Sq : forall x, 0 <= (1 - k) * (x * x)) by (intros x; apply Rmult_le_pos; [lra|nra]). destruct ax; cbn [rotation_matrix]; [| | |exfalso; now apply (N x y z)]; fold s k; cbn [mv m00 m01 m02 m10 m11 m12 m20 m21 m22 vx vy vz].
      + pose proof (Sq a). replace k with (k * (a * a + b * b + c * c)) at 1 by (rewrite U; ring). nra.
      + pose proof (Sq b). replace k with (k * (a * a + b * b + c * c)) at 1 by (rewrite U; ring). nra.
      + pose proof (Sq c). replace k with (k * (a * a + b * b + c * c)) at 1 by (rewrite U; ring). nra.
    - set (w := mv (rot ax d) v) in *. clearbody w. destruct v as [a b c], w as [p q r]. unfold dot in *. cbn [vx vy vz] in *. assert (0 <= (a - p) * (a - p) + (b - q) * (b - q) + (c - r) * (c - r)) by apply sq3. lra. }
  apply Rnot_lt_le. intros X. pose proof (acos_bound (dot v (mv (rot ax d) v))) as A1. pose proof (acos_bound (cos (rad d))) as A2. apply cos_decreasing_1 in X; [|lra|lra|lra|lra]. rewrite !cos_acos in X by lra. lra.
Qed.
Lemma three_small a b c x y z v : dot v v = 1 -> Rabs a <= x -> Rabs b <= y -> Rabs c <= z -> x + y + z <= 180 -> cos ((x + y + z) * PI / 180) <= dot v (mv (m3 (rot AX a) (rot AY b) (rot AZ c)) v).
Proof.
  intros U A B C S. pose proof PI_RGT_0 as P. pose proof (Rabs_pos a). pose proof (Rabs_pos b). pose proof (Rabs_pos c). assert (K : forall d, Rabs d <= 180 -> 0 <= d * PI / 180 <= PI \/ 0 <= - d * PI / 180 <= PI). { intros d D. apply abs_between in D. destruct (Rle_dec 0 d); [left|right]; split; nra. }
  unfold m3. rewrite !mv_mm. set (v1 := mv (rot AZ c) v). assert (U1 : dot v1 v1 = 1) by (unfold v1; rewrite orth_dot by (apply rot_orth; discriminate); exact U). set (v2 := mv (rot AY b) v1). assert (U2 : dot v2 v2 = 1) by (unfold v2; rewrite orth_dot by (apply rot_orth; discriminate); exact U1). set (v3 := mv (rot AX a) v2). assert (U3 : dot v3 v3 = 1) by (unfold v3; rewrite orth_dot by (apply rot_orth; discriminate); exact U2).
  pose proof (rot_small AZ c v ltac:(discriminate) U (K c ltac:(lra))) as R1. fold v1 in R1. pose proof (rot_small AY b v1 ltac:(discriminate) U1 (K b ltac:(lra))) as R2. fold v2 in R2. pose proof (rot_small AX a v2 ltac:(discriminate) U2 (K a ltac:(lra))) as R3. fold v3 in R3.
  pose proof (acos_triangle v v1 v3 U U1 U3) as T1. pose proof (acos_triangle v1 v2 v3 U1 U2 U3) as T2. assert (T : acos (dot v v3) <= (x + y + z) * PI / 180) by nra. assert (B1 : -1 <= dot v v3 <= 1). { clearbody v3. destruct v as [p q r], v3 as [p' q' r']. unfold dot in *. cbn [vx vy vz] in *. assert (0 <= (p - p') * (p - p') + (q - q') * (q - q') + (r - r') * (r - r')) by apply sq3. assert (0 <= (p + p') * (p + p') + (q + q') * (q + q') + (r + r') * (r + r')) by apply sq3. lra. }
  rewrite <- (cos_acos (dot v v3)) by exact B1. pose proof (acos_bound (dot v v3)) as Ab. apply cos_decr_1; try lra; nra.
Qed.
(** J2000, no epoch: FK5 is within 52 milliarcseconds of the ICRS, the equinox and the intermediate system within 39 of the GCRS *)
Theorem frames_tied o g : good (at_ o) -> ep o = None -> (fr o = ICRS /\ g = FK5) \/ (fr o = GCRS /\ (g = EQX \/ g = CIRS)) -> exists r, convert o [g] = Ok r /\ fr r = g /\
  cos ((match g with FK5 => 0.052 | _ => 0.039 end) / 3600 * PI / 180) <= dot (dir (at_ o)) (dir (at_ r)).
Proof.
  intros G E H. assert (X : exists m, trans (fr o) g (ep o) = Some (Ok m) /\ ~ fk45 (fr o) g /\ forall v, dot v v = 1 -> cos ((match g with FK5 => 0.052 | _ => 0.039 end) / 3600 * PI / 180) <= dot v (mv m v)).
  { assert (Y : forall a b c x y z w v, dot v v = 1 -> Rabs a <= x -> Rabs b <= y -> Rabs c <= z -> x + y + z <= 180 -> x + y + z = w -> cos (w * PI / 180) <= dot v (mv (m3 (rot AX a) (rot AY b) (rot AZ c)) v)) by (intros; subst w; now apply three_small).
    rewrite E. destruct H as [(-> & ->)|(-> & [-> | ->])]; eexists; (split; [reflexivity|split; [apply not45; discriminate|intros v U]]).
    - apply (Y _ _ _ (0.01995 / 3600) (0.00912 / 3600) (0.02293 / 3600)); [exact U|apply Rabs_le; lra|apply Rabs_le; lra|apply Rabs_le; lra|lra|lra].
    - apply (Y _ _ _ (0.007 / 3600) (0.017 / 3600) (0.015 / 3600)); [exact U|apply Rabs_le; lra|apply Rabs_le; lra|apply Rabs_le; lra|lra|lra].
    - apply (Y _ _ _ (0.007 / 3600) (0.017 / 3600) (0.015 / 3600)); [exact U|apply Rabs_le; lra|apply Rabs_le; lra|apply Rabs_le; lra|lra|lra]. }
  destruct X as (m & T & N & Q). destruct (conversion _ _ _ _ _ _ _ _ _ o g m G T N) as (r & Er & Fr & _ & _ & _ & D & _). exists r. split; [exact Er|]. split; [exact Fr|]. rewrite D. apply Q, dot_unit.
Qed.

End Frames.
