(** * SphereProofs *)
From Coq Require Import Reals ZArith Lra Lia Psatz List Bool.
From Verif Require Import PyBase RealTrig AngleModel AngleProofs SphereModel.
Open Scope R_scope.

Definition dot (u v : vec) : R := vx u * vx v + vy u * vy v + vz u * vz v.
Definition scale (k : R) (u : vec) : vec := V (k * vx u) (k * vy u) (k * vz u).
Definition dir (c : coord) : vec := unit_of (decval (lat c)) (decval (long c)).
Definition idm : mat := M 1 0 0 0 1 0 0 0 1.
Definition orthogonal (m : mat) : Prop := mm (tr m) m = idm.

Lemma vec_eq u v : vx u = vx v -> vy u = vy v -> vz u = vz v -> u = v.
Proof. destruct u, v; cbn; intros; subst; reflexivity. Qed.
Lemma mat_eq a b : m00 a = m00 b -> m01 a = m01 b -> m02 a = m02 b -> m10 a = m10 b -> m11 a = m11 b -> m12 a = m12 b ->
  m20 a = m20 b -> m21 a = m21 b -> m22 a = m22 b -> a = b.
Proof. destruct a, b; cbn; intros; subst; reflexivity. Qed.
Lemma mv_mm a b v : mv (mm a b) v = mv a (mv b v).
Proof. apply vec_eq; cbn; ring. Qed.
Lemma mv_id v : mv idm v = v.
Proof. apply vec_eq; cbn; ring. Qed.
Lemma mm_assoc a b c : mm (mm a b) c = mm a (mm b c).
Proof. apply mat_eq; cbn; ring. Qed.
Lemma mm_id_l a : mm idm a = a. Proof. apply mat_eq; cbn; ring. Qed.
Lemma mm_id_r a : mm a idm = a. Proof. apply mat_eq; cbn; ring. Qed.
Lemma tr_mm a b : tr (mm a b) = mm (tr b) (tr a).
Proof. apply mat_eq; cbn; ring. Qed.
Lemma tr_tr a : tr (tr a) = a. Proof. destruct a; reflexivity. Qed.
Lemma dot_mv m u v : dot (mv m u) v = dot u (mv (tr m) v).
Proof. unfold dot; cbn; ring. Qed.
Lemma dot_sym u v : dot u v = dot v u. Proof. unfold dot; ring. Qed.
Lemma orth_dot m u v : orthogonal m -> dot (mv m u) (mv m v) = dot u v.
Proof. intros H. rewrite dot_mv, <- mv_mm, H, mv_id. reflexivity. Qed.
Lemma orth_mm a b : orthogonal a -> orthogonal b -> orthogonal (mm a b).
Proof. unfold orthogonal. intros Ha Hb. rewrite tr_mm, mm_assoc, <- (mm_assoc (tr a)), Ha, mm_id_l. exact Hb. Qed.
Definition det (m : mat) : R := m00 m * (m11 m * m22 m - m12 m * m21 m) - m01 m * (m10 m * m22 m - m12 m * m20 m) + m02 m * (m10 m * m21 m - m11 m * m20 m).
Definition adj (m : mat) : mat :=
  M (m11 m * m22 m - m12 m * m21 m) (m02 m * m21 m - m01 m * m22 m) (m01 m * m12 m - m02 m * m11 m)
    (m12 m * m20 m - m10 m * m22 m) (m00 m * m22 m - m02 m * m20 m) (m02 m * m10 m - m00 m * m12 m)
    (m10 m * m21 m - m11 m * m20 m) (m01 m * m20 m - m00 m * m21 m) (m00 m * m11 m - m01 m * m10 m).
Definition smat k (m : mat) := M (k * m00 m) (k * m01 m) (k * m02 m) (k * m10 m) (k * m11 m) (k * m12 m) (k * m20 m) (k * m21 m) (k * m22 m).
Lemma adj_r m : mm m (adj m) = smat (det m) idm.
Proof. apply mat_eq; unfold det; cbn; ring. Qed.
Lemma det_mm a b : det (mm a b) = det a * det b.
Proof. unfold det; cbn; ring. Qed.
Lemma det_tr a : det (tr a) = det a. Proof. unfold det; cbn; ring. Qed.
(** a left inverse is a right inverse *)
Lemma orth_right m : orthogonal m -> mm m (tr m) = idm.
Proof.
  intros H. assert (D : det m * det m = 1). { rewrite <- (det_tr m) at 1. rewrite <- det_mm, H. unfold det; cbn; ring. }
  assert (E : smat (det m) (tr m) = adj m).
  { rewrite <- (mm_id_l (adj m)), <- H, mm_assoc, adj_r. apply mat_eq; cbn; ring. }
  assert (smat (det m) (mm m (tr m)) = smat (det m) idm) as K.
  { rewrite <- adj_r, <- E. apply mat_eq; cbn; ring. }
  assert (Hn : det m <> 0) by nra. unfold smat in K. injection K as K0 K1 K2 K3 K4 K5 K6 K7 K8.
  apply mat_eq; eapply (Rmult_eq_reg_l (det m)); eauto.
Qed.
Lemma orth_tr m : orthogonal m -> orthogonal (tr m).
Proof. intros H. unfold orthogonal. rewrite tr_tr. now apply orth_right. Qed.

Lemma dot_unit la lo : dot (unit_of la lo) (unit_of la lo) = 1.
Proof.
  unfold dot; cbn. pose proof (sin2_cos2 la) as A. pose proof (sin2_cos2 lo) as B. unfold Rsqr in A, B.
  replace (cos la * cos lo * (cos la * cos lo) + cos la * sin lo * (cos la * sin lo) + sin la * sin la)
    with (cos la * cos la * (sin lo * sin lo + cos lo * cos lo) + sin la * sin la) by ring. rewrite B. lra.
Qed.
Lemma cauchy u v : dot u v * dot u v <= dot u u * dot v v.
Proof.
  unfold dot. destruct u as [a b c], v as [d e f]; cbn.
  pose proof (Rle_0_sqr (a*e - b*d)). pose proof (Rle_0_sqr (a*f - c*d)). pose proof (Rle_0_sqr (b*f - c*e)). unfold Rsqr in *. nra.
Qed.
Lemma dot_bound u v : dot u u = 1 -> dot v v = 1 -> -1 <= dot u v <= 1.
Proof. intros A B. pose proof (cauchy u v) as H. rewrite A, B in H. split; nra. Qed.
Lemma dot_one u v : dot u u = 1 -> dot v v = 1 -> dot u v = 1 -> u = v.
Proof.
  intros A B E. assert ((vx u - vx v)² + (vy u - vy v)² + (vz u - vz v)² = 0) as S.
  { unfold Rsqr, dot in *. nra. }
  pose proof (Rle_0_sqr (vx u - vx v)). pose proof (Rle_0_sqr (vy u - vy v)). pose proof (Rle_0_sqr (vz u - vz v)).
  apply vec_eq; apply Rminus_diag_uniq; apply Rsqr_0_uniq; lra.
Qed.

Lemma haversin_eq t : haversin t = (1 - cos t) / 2.
Proof.
  assert (E : (sin (t / 2))² = (1 - cos t) / 2).
  { replace t with (2 * (t / 2)) at 2 by field. rewrite cos_2a_sin. unfold Rsqr. field. }
  unfold haversin. destruct (Rlt_dec _ _); [destruct (Rlt_dec _ _)|]; auto.
Qed.
Lemma archaversin_eq h : 0 <= h <= 1 -> archaversin h = acos (1 - 2 * h).
Proof.
  intros Hh. assert (E : 2 * asin (sqrt h) = acos (1 - 2 * h)).
  { assert (0 <= sqrt h <= 1) as Hs. { split; [apply sqrt_pos|]. rewrite <- sqrt_1. apply sqrt_le_1; lra. }
    pose proof (asin_bound (sqrt h)) as Hb.
    assert (0 <= asin (sqrt h)) as Hp.
    { destruct (Rle_dec 0 (asin (sqrt h))) as [|N]; auto. exfalso. assert (sin (asin (sqrt h)) < 0). { apply sin_lt_0_var; pose proof PI_RGT_0; lra. } rewrite sin_asin in H; lra. }
    rewrite <- (acos_cos (2 * asin (sqrt h))) by lra. f_equal. rewrite cos_2a_sin, sin_asin by lra. rewrite Rmult_assoc, sqrt_sqrt by lra. lra. }
  unfold archaversin. destruct (Rlt_dec _ _); [destruct (Rle_dec _ _)|]; auto.
Qed.
Lemma cos_Rabs x : cos (Rabs x) = cos x.
Proof. unfold Rabs. destruct (Rcase_abs x); [apply cos_neg|reflexivity]. Qed.
Lemma sepRad_acos a b : sepRad a b = acos (dot (dir a) (dir b)).
Proof.
  unfold sepRad. rewrite !haversin_eq, !cos_Rabs. set (b1 := decval (lat a)). set (b2 := decval (lat b)).
  assert (E : 1 - 2 * ((1 - cos (b2 - b1)) / 2 + cos b1 * cos b2 * ((1 - cos (decval (long b) - decval (long a))) / 2)) = dot (dir a) (dir b)).
  { unfold dot, dir, unit_of. fold b1 b2. cbn [vx vy vz]. rewrite (cos_minus b2 b1), (cos_minus (decval (long b))). field. }
  rewrite <- E. apply archaversin_eq. pose proof (dot_bound (dir a) (dir b) (dot_unit _ _) (dot_unit _ _)) as H. rewrite <- E in H. lra.
Qed.

(** spherical triangle inequality *)
Lemma acos_triangle u v w : dot u u = 1 -> dot v v = 1 -> dot w w = 1 -> acos (dot u w) <= acos (dot u v) + acos (dot v w).
Proof.
  intros Hu Hv Hw. pose proof (dot_bound u v Hu Hv) as A. pose proof (dot_bound v w Hv Hw) as B. pose proof (dot_bound u w Hu Hw) as D.
  pose proof (acos_bound (dot u v)) as Ba. pose proof (acos_bound (dot v w)) as Bb. pose proof (acos_bound (dot u w)) as Bc.
  destruct (Rle_dec PI (acos (dot u v) + acos (dot v w))) as [|N]; [lra|].
  set (al := acos (dot u v)) in *. set (be := acos (dot v w)) in *.
  rewrite <- (acos_cos (al + be)) by lra.
  assert (cos (al + be) <= dot u w) as L.
  { rewrite cos_plus. assert (Ca : cos al = dot u v) by (apply cos_acos; lra). assert (Cb : cos be = dot v w) by (apply cos_acos; lra).
    assert (0 <= sin al) by (apply sin_ge_0; lra). assert (0 <= sin be) by (apply sin_ge_0; lra).
    set (p := V (vx u - dot u v * vx v) (vy u - dot u v * vy v) (vz u - dot u v * vz v)).
    set (q := V (vx w - dot v w * vx v) (vy w - dot v w * vy v) (vz w - dot v w * vz v)).
    assert (Pp : dot p p = sin al * sin al). { pose proof (sin2_cos2 al) as S. unfold Rsqr in S. rewrite Ca in S. transitivity (dot u u - 2 * dot u v * dot u v + dot u v * dot u v * dot v v); [unfold p, dot; cbn; ring|]. rewrite Hu, Hv. lra. }
    assert (Qq : dot q q = sin be * sin be). { pose proof (sin2_cos2 be) as S. unfold Rsqr in S. rewrite Cb in S. transitivity (dot w w - 2 * dot v w * dot v w + dot v w * dot v w * dot v v); [unfold q, dot; cbn; ring|]. rewrite Hw, Hv. lra. }
    assert (Pq : dot p q = dot u w - dot u v * dot v w). { transitivity (dot u w - 2 * dot u v * dot v w + dot u v * dot v w * dot v v); [unfold p, q, dot; cbn; ring|]. rewrite Hv. ring. }
    pose proof (cauchy p q) as K. rewrite Pp, Qq in K. rewrite Ca, Cb.
    assert (- (sin al * sin be) <= dot p q); [|lra]. assert (0 <= sin al * sin be) by nra.
    destruct (Rle_dec (- (sin al * sin be)) (dot p q)) as [|N2]; [auto|]. exfalso. nra. }
  destruct (Rle_lt_or_eq_dec _ _ L) as [L'|E]; [|rewrite E; lra].
  left. rewrite acos_cos by lra. apply cos_decreasing_0; try lra. rewrite (cos_acos (dot u w)) by lra. exact L'.
Qed.

(** cartesian to spherical *)
Lemma sph_spec v : let n := sqrt (dot v v) in v = scale n (unit_of (sphLat v) (sphLong v)) /\ - (PI / 2) <= sphLat v <= PI / 2 /\ - PI < sphLong v <= PI.
Proof.
  destruct v as [x y z]. intros n. set (s := sqrt (x * x + y * y)).
  assert (Hs : 0 <= s) by apply sqrt_pos. destruct (atan2_polar x y) as (Ex & Ey). destruct (atan2_polar s z) as (Es & Ez).
  assert (En : sqrt (s * s + z * z) = n). { unfold n, dot. cbn. f_equal. unfold s. rewrite sqrt_sqrt by nra. ring. }
  rewrite En in Es, Ez. fold s in Ex, Ey. split; [|split].
  - unfold scale, unit_of, sphLat, sphLong. cbn [vx vy vz]. fold s. apply vec_eq; cbn [vx vy vz].
    + rewrite <- Rmult_assoc, <- Es. exact Ex.
    + rewrite <- Rmult_assoc, <- Es. exact Ey.
    + exact Ez.
  - unfold sphLat. cbn. fold s. now apply atan2_half.
  - apply atan2_range.
Qed.
Lemma fixLat_id l : - (PI / 2) <= l <= PI / 2 -> fixLat l = l.
Proof.
  intros H. unfold fixLat. pose proof PI_RGT_0. set (ao := (l + PI / 2) / (2 * PI)).
  assert (E : 2 * PI * ao = l + PI / 2) by (unfold ao; field; lra).
  assert (0 <= ao <= 1 / 2) as Ha by (split; nra).
  destruct (Rlt_dec ao (1 / 2)).
  - rewrite (rfloor_unique _ 0) by lra. rewrite Rabs_pos_eq by lra. lra.
  - assert (ao = 1 / 2) as E2 by lra. rewrite (rfloor_unique _ 1) by lra. rewrite Rabs_left by lra. nra.
Qed.

(** ** Coordinates whose latitude is in [-90,90] and longitude in the class's range ([0,360) without one) *)
Definition lat_in (x : R) : Prop := - (PI / 2) <= x <= PI / 2.
Definition long_in (a : ang) : Prop :=
  match range a with
  | None => 0 <= decval a < 2 * PI
  | Some (low, up, Some k) => up = low + 2 * PI /\ k <= 0 /\ low <= decval a < up
  | Some (_, _, None) => False
  end.
Definition coord_ok (c : coord) : Prop := range (lat c) = latrange /\ lat_in (decval (lat c)) /\ long_in (long c).

Lemma latrange_eq : exists l u, latrange = Some (l, u, Some (2 * (u - l))) /\ l = - (PI / 2) /\ u = PI / 2.
Proof.
  exists (rad (-90)), (rad 90). unfold latrange. repeat split; try (unfold rad; field). do 2 f_equal. f_equal. unfold rad. field.
Qed.
Lemma latrange_id x : lat_in x -> checkRange latrange x = Ok x.
Proof.
  intros H. destruct latrange_eq as (l & u & -> & -> & ->). pose proof PI_RGT_0. unfold lat_in in H.
  apply checkRange_id; cbn; [lra|split; [lra|intros; lra]|split; [lra|reflexivity]].
Qed.
Lemma setRad_lat a x : range a = latrange -> lat_in x -> setRad a x = (Ang x latrange, Ok tt).
Proof. intros Hr H. unfold setRad. rewrite Hr, latrange_id by auto. reflexivity. Qed.
Lemma setRad_lat_any a x : range a = latrange -> exists w, setRad a x = (Ang w latrange, Ok tt) /\ lat_in w.
Proof.
  intros Hr. unfold setRad. rewrite Hr. destruct latrange_eq as (l & u & El & Hl & Hu). pose proof PI_RGT_0.
  destruct (checkRange latrange x) as [w|e|] eqn:E.
  - exists w. split; auto. apply checkRange_in in E; [|rewrite El; cbn; lra]. rewrite El in E. cbn in E. unfold lat_in. lra.
  - exfalso. rewrite El in E. cbn in E. destruct (Req_EM_T (u - l) 0); [lra|]. destruct (Rlt_dec _ _); discriminate.
  - now apply checkRange_fuel in E.
Qed.
Lemma setRad_long a x : long_in a -> exists w (k : Z), setRad a (pymod x (2 * PI)) = (Ang w (range a), Ok tt) /\ long_in (Ang w (range a)) /\ w = x + IZR k * (2 * PI).
Proof.
  intros Hl. pose proof PI_RGT_0 as HP. destruct (pymod_cong x (2 * PI)) as (k0 & E0). pose proof (pymod_range x (2 * PI) ltac:(lra)) as Hm.
  unfold setRad. destruct (range a) as [((low, up), [k|])|] eqn:Er; unfold long_in in Hl; rewrite Er in Hl; [|tauto|].
  - destruct Hl as (-> & Hk & _). destruct (checkRange (Some (low, low + 2 * PI, Some k)) (pymod x (2 * PI))) as [w|e|] eqn:E.
    + destruct (checkRange_cyclic _ _ _ _ _ Hk E) as (k1 & E1). exists w, (k0 + k1)%Z. split; [reflexivity|]. split.
      * cbn. apply checkRange_in in E; [|cbn; lra]. cbn in E. lra.
      * rewrite E1, E0, plus_IZR. replace (low + 2 * PI - low) with (2 * PI) by lra. ring.
    + exfalso. cbn in E. destruct (Req_EM_T (low + 2 * PI - low) 0); [lra|]. destruct (Rlt_dec 0 k); discriminate.
    + now apply checkRange_fuel in E.
  - exists (pymod x (2 * PI)), k0. cbn. repeat split; auto; lra.
Qed.

Lemma setLat_spec c x : coord_ok c -> exists w, setLat c x = (C (Ang w latrange) (long c) (laterr c) (longerr c), Ok tt) /\
  lat_in w /\ sin w = sin x /\ cos w = Rabs (cos x).
Proof.
  intros (Hr & _ & _). unfold setLat. pose proof PI_RGT_0 as HP. pose proof (pymod_range x (2 * PI) ltac:(lra)) as Hm.
  pose proof (sin_pymod x) as Es. pose proof (cos_pymod x) as Ec. set (r := pymod x (2 * PI)) in *.
  destruct (Rlt_dec (3 * PI / 2) r); [|destruct (Rlt_dec (PI / 2) r)].
  - rewrite (setRad_lat _ (r - 2 * PI) Hr) by (unfold lat_in; lra). eexists. split; [reflexivity|]. split; [unfold lat_in; lra|].
    assert (Sp : sin (r - 2 * PI) = sin r). { rewrite <- (sin_2kpi r (-1)). f_equal. lra. }
    assert (Cp : cos (r - 2 * PI) = cos r). { rewrite <- (cos_2kpi r (-1)). f_equal. lra. }
    rewrite Sp, Cp, Es, Ec. split; [auto|]. rewrite Rabs_pos_eq; auto. rewrite <- Ec, <- Cp. apply cos_ge_0; lra.
  - rewrite (setRad_lat _ (PI - r) Hr) by (unfold lat_in; lra). eexists. split; [reflexivity|]. split; [unfold lat_in; lra|].
    rewrite sin_PI_x. split; [auto|]. replace (cos (PI - r)) with (- cos x) by (rewrite <- Ec, Rtrigo_facts.cos_pi_minus; reflexivity).
    assert (0 <= - cos x). { rewrite <- Ec. rewrite <- Rtrigo_facts.cos_pi_minus. apply cos_ge_0; lra. }
    rewrite Rabs_left1; lra.
  - rewrite (setRad_lat _ r Hr) by (unfold lat_in; lra). eexists. split; [reflexivity|]. split; [unfold lat_in; lra|].
    rewrite Es, Ec. split; auto. rewrite Rabs_pos_eq; auto. rewrite <- Ec. apply cos_ge_0; lra.
Qed.
Lemma lat_unique w x : lat_in w -> lat_in x -> sin w = sin x -> w = x.
Proof. unfold lat_in. intros A B E. rewrite <- (asin_sin w), <- (asin_sin x), E by lra. reflexivity. Qed.
Lemma setLong_spec c x : coord_ok c -> exists w (k : Z), setLong c x = (C (lat c) (Ang w (range (long c))) (laterr c) (longerr c), Ok tt) /\
  long_in (Ang w (range (long c))) /\ w = x + IZR k * (2 * PI).
Proof.
  intros (_ & _ & Hl). unfold setLong. destruct (setRad_long (long c) x Hl) as (w & k & E & Hw & Ek). rewrite E. exists w, k. auto.
Qed.
Lemma dot_pos v : v <> V 0 0 0 -> 0 < dot v v.
Proof.
  intros H. assert (0 <= dot v v) as [|E]; auto. { unfold dot. nra. }
  exfalso. apply H. unfold dot in E. apply vec_eq; cbn; nra.
Qed.
Lemma dot_zero : dot (V 0 0 0) (V 0 0 0) = 0. Proof. unfold dot; cbn; ring. Qed.
(** rotation: succeeds when there are no errors, for any matrix that does not annihilate the direction *)
Lemma rotate_spec m c : coord_ok c -> nz (laterr c) = false -> nz (longerr c) = false ->
  exists la lo, matrixRotate true true m c = (C (Ang la latrange) (Ang lo (range (long c))) (laterr c) (longerr c), Ok (la, pymod lo (2 * PI))) /\
  lat_in la /\ long_in (Ang lo (range (long c))) /\
  mv m (dir c) = scale (sqrt (dot (mv m (dir c)) (mv m (dir c)))) (unit_of la lo).
Proof.
  intros (Hr & Hla & Hlo) H1 H2. unfold matrixRotate. rewrite H1, H2. cbn [orb]. fold (dir c).
  destruct (sph_spec (mv m (dir c))) as (Ev & Hb & _). set (v := mv m (dir c)) in *. rewrite (fixLat_id _ Hb).
  rewrite (setRad_lat _ _ Hr Hb). pose proof PI_RGT_0 as HP.
  destruct (setRad_long (long c) (sphLong v) Hlo) as (w & k & E & Hw & Ek). rewrite E.
  exists (sphLat v), w. split.
  - do 3 f_equal. rewrite Ek. symmetry. apply pymod_shift. lra.
  - split; [exact Hb|]. split; [exact Hw|]. rewrite Ev at 1. f_equal. unfold unit_of. rewrite Ek, cos_2kpi, sin_2kpi. reflexivity.
Qed.
Lemma scale_1 v : scale 1 v = v. Proof. apply vec_eq; cbn; ring. Qed.
Lemma rotate_orth m c : coord_ok c -> nz (laterr c) = false -> nz (longerr c) = false -> orthogonal m ->
  exists c' la lo, matrixRotate true true m c = (c', Ok (la, lo)) /\ coord_ok c' /\ dir c' = mv m (dir c) /\ unit_of la lo = mv m (dir c) /\
    nz (laterr c') = false /\ nz (longerr c') = false /\ range (long c') = range (long c) /\ laterr c' = laterr c /\ longerr c' = longerr c.
Proof.
  intros Hc H1 H2 Ho. destruct (rotate_spec m c Hc H1 H2) as (la & lo & E & A & B & D). rewrite E. eexists; exists la, (pymod lo (2 * PI)). split; [reflexivity|].
  assert (D1 : dot (dir c) (dir c) = 1) by apply dot_unit. rewrite (orth_dot m _ _ Ho), D1, sqrt_1, scale_1 in D. cbn [lat long laterr longerr range]. 
  split; [repeat split; [apply A|apply A|exact B]|]. split; [rewrite D; reflexivity|]. split; [|repeat split; auto].
  rewrite D. unfold unit_of. rewrite sin_pymod, cos_pymod. reflexivity.
Qed.
(** A direction determines the coordinate, except for the longitude of a pole *)
Lemma dir_inj la1 lo1 la2 lo2 : lat_in la1 -> lat_in la2 -> unit_of la1 lo1 = unit_of la2 lo2 ->
  la1 = la2 /\ (la1 = PI / 2 \/ la1 = - (PI / 2) \/ exists k : Z, lo1 = lo2 + IZR k * (2 * PI)).
Proof.
  intros A B E. injection E as E1 E2 E3. assert (la1 = la2) as <- by (apply lat_unique; auto). split; [auto|].
  unfold lat_in in A. destruct (Req_dec la1 (PI / 2)); [auto|]. destruct (Req_dec la1 (- (PI / 2))); [auto|]. right. right.
  assert (0 < cos la1) by (apply cos_gt_0; lra). apply sincos_eq; eapply (Rmult_eq_reg_l (cos la1)); eauto; lra.
Qed.
Lemma long_in_unique r x y (k : Z) : long_in (Ang x r) -> long_in (Ang y r) -> x = y + IZR k * (2 * PI) -> x = y.
Proof.
  unfold long_in. cbn [range decval]. intros A B E. pose proof PI_RGT_0 as HP.
  assert (- (2 * PI) < x - y < 2 * PI) as H. { destruct r as [((low, up), [c|])|]; [destruct A as (-> & _ & A), B as (_ & _ & B); lra|tauto|lra]. }
  assert (-1 < IZR k < 1) as (K1 & K2) by (split; nra). apply lt_IZR in K1, K2. assert (k = 0)%Z as -> by lia. lra.
Qed.
