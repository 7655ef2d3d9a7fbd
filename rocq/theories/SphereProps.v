(** * SphereProps: C21 (latitude/longitude), C22 (separations and rotations), C23 (rotation matrices),
    C33 (cartesian vectors), C34 (ellipticities) *)
From Coq Require Import Reals ZArith Lra Lia Psatz List Bool.
From Verif Require Import PyBase RealTrig AngleModel AngleProofs SphereModel SphereProofs RotProofs.
Import ListNotations.
Open Scope R_scope.

(** ** C21.  [lat_in x]: -90 <= x <= 90 degrees; [long_in a]: the longitude is in the class's
    range [low, low+360), or [0,360) for a class without range ([SphereProofs.v]). *)
(** class ranges: none, or (low, low+360) *)
Definition class_range (r : rangearg) : Prop := r = RNone \/ exists low, r = R2 low (low + 360).
(** Assignments allowed: not the range of the angle objects; the longitude's angle object only in a
    class with a range, without degminsec of negative degrees (C19_dms_sign_refuted). *)
Definition cop_ok (c : coord) (o : cop) : Prop :=
  match o with
  | CLatA (ORange _) | CLongA (ORange _) => False
  | CLongA (ODms d _ _) => range (long c) <> None /\ 0 <= d
  | CLongA _ => range (long c) <> None
  | _ => True
  end.
Fixpoint chistory_ok (c : coord) (l : list cop) : Prop := match l with [] => True | o :: r => cop_ok c o /\ chistory_ok (cstep c o) r end.

Lemma newCoord_spec r lo la e1 e2 : class_range r -> exists c, newCoord r lo la e1 e2 = Ok c /\ coord_ok c /\
  sin (decval (lat c)) = sin (rad la) /\ cos (decval (lat c)) = Rabs (cos (rad la)) /\ exists k : Z, decval (long c) = rad lo + IZR k * (2 * PI).
Proof.
  intros Hr. pose proof PI_RGT_0 as HP. unfold newCoord.
  assert (exists lg, setRange (Ang 0 None) r = (lg, Ok tt) /\ long_in lg) as (lg & -> & Hlg).
  { destruct Hr as [->|(low & ->)]; [eexists; split; [reflexivity|]; cbn; lra|].
    assert (W : rad (low + 360) = rad low + 2 * PI) by (unfold rad; field).
    unfold setRange. destruct (Rlt_dec _ _); [lra|]. destruct (Req_EM_T _ 360); [|lra]. unfold applyRange.
    cbn [option_map decval]. rewrite W. destruct (checkRange _ 0) as [w|ex|] eqn:E.
    - eexists. split; [reflexivity|]. cbn. apply checkRange_in in E; [|cbn; lra]. cbn in E. unfold rad in *. lra.
    - exfalso. cbn in E. destruct (Req_EM_T _ 0); [lra|]. destruct (Rlt_dec 0 (rad 0)); discriminate.
    - now apply checkRange_fuel in E. }
  assert (coord_ok (C (Ang 0 latrange) lg None None)) as H0. { repeat split; cbn; try lra; auto. }
  destruct (setLat_spec _ (rad la) H0) as (w & E1 & Hw & Hs & Hc). rewrite E1. cbn [long laterr longerr].
  assert (coord_ok (C (Ang w latrange) lg None None)) as H1. { split; [reflexivity|]. split; auto. }
  destruct (setLong_spec _ (rad lo) H1) as (w2 & k & E2 & Hl & Hk). rewrite E2. eexists. split; [reflexivity|].
  cbn [lat long range decval]. split; [|eauto]. split; [reflexivity|]. split; auto.
Qed.
Lemma cstep_ok c o : coord_ok c -> cop_ok c o -> coord_ok (cstep c o).
Proof.
  intros Hc Ho. pose proof Hc as (Hr & Hla & Hlo). destruct o as [x|x|o|o|m]; cbn [cstep].
  - destruct (setLat_spec c x Hc) as (w & -> & Hw & _). split; [reflexivity|]. split; auto.
  - destruct (setLong_spec c x Hc) as (w & k & -> & Hw & _). split; [exact Hr|]. split; auto.
  - assert (forall x, range (fst (setRad (lat c) x)) = latrange /\ lat_in (decval (fst (setRad (lat c) x)))) as H.
    { intros x. destruct (setRad_lat_any (lat c) x Hr) as (w & -> & Hw). auto. }
    assert (range (fst (astep (lat c) o)) = latrange /\ lat_in (decval (fst (astep (lat c) o)))) as (H1 & H2); [|repeat split; cbn; [exact H1|apply H2|apply H2|exact Hlo]].
    destruct o as [x|x|x|h m s|d m s|r]; try (apply H). 2: destruct Ho.
    cbn [astep]. unfold setDms, setDeg. destruct (setRad_lat_any (lat c) ((Rabs d + Rabs m / 60 + Rabs s / 3600) * PI / 180) Hr) as (w & -> & Hw).
    cbn [fst]. destruct (Rlt_dec d 0); cbn [range decval]; [|auto]. split; auto. unfold lat_in in *. lra.
  - assert (long_in (fst (astep (long c) o))) as H; [|repeat split; cbn; auto; try apply Hla].
    assert (range (long c) <> None -> forall x, long_in (fst (setRad (long c) x)) /\ range (fst (setRad (long c) x)) = range (long c)) as H.
    { intros Hn x. destruct (setRad (long c) x) as (a', q) eqn:E. apply setRad_cases in E. cbn [fst].
      destruct E as [(e & _ & -> & _)|(v & _ & -> & E)]; [auto|]. split; [|reflexivity]. unfold long_in in *. cbn [range decval].
      destruct (range (long c)) as [((low, up), [k|])|] eqn:Er; [|tauto|tauto]. destruct Hlo as (-> & Hk & _). pose proof PI_RGT_0.
      apply checkRange_in in E; [|cbn; lra]. cbn in E. lra. }
    destruct o as [x|x|x|h m s|d m s|r]; try (apply H; exact Ho). 2: destruct Ho.
    destruct Ho as (Hn & Hd). cbn [astep]. unfold setDms, setDeg. destruct (setRad (long c) _) as (a', [q|e|]) eqn:E;
      (assert (a' = fst (setRad (long c) ((Rabs d + Rabs m / 60 + Rabs s / 3600) * PI / 180))) as -> by (rewrite E; reflexivity)); cbn [fst]; [|apply H; exact Hn|apply H; exact Hn].
    destruct (Rlt_dec d 0); [lra|]. apply H; exact Hn.
  - destruct (nz (laterr c)) eqn:N1. { unfold matrixRotate. rewrite N1. exact Hc. }
    destruct (nz (longerr c)) eqn:N2. { unfold matrixRotate. rewrite N1, N2. exact Hc. }
    destruct (rotate_spec m c Hc N1 N2) as (la & lo & -> & A & B & _). split; [reflexivity|]. split; [exact A|exact B].
Qed.
(** Whatever is assigned, the latitude is in [-90,90] degrees and the longitude in its range. *)
Theorem C21_always_in_range : forall r lo la e1 e2 l, class_range r -> exists c, newCoord r lo la e1 e2 = Ok c /\
  (chistory_ok c l -> lat_in (decval (lat (crun c l))) /\ long_in (long (crun c l))).
Proof.
  intros r lo la e1 e2 l Hr. destruct (newCoord_spec r lo la e1 e2 Hr) as (c & E & Hc & _). exists c. split; [exact E|]. intros Hl.
  assert (coord_ok (crun c l)) as (_ & H); [|exact H]. clear E. revert c Hc Hl. induction l as [|o l IH]; intros c Hc Hl; [exact Hc|]. destruct Hl as (Ho & Hl).
  cbn. apply IH; auto. now apply cstep_ok.
Qed.
Print Assumptions C21_always_in_range.
(** What is stored: a latitude with the same sine (so the same height), folded over the pole if it has to be; a
    value within [-90,90] degrees itself.  The longitude modulo 360 degrees. *)
Theorem C21_stored : forall c x, coord_ok c ->
  (exists w, setLat c x = (C (Ang w latrange) (long c) (laterr c) (longerr c), Ok tt) /\ lat_in w /\ sin w = sin x /\ cos w = Rabs (cos x) /\ (lat_in x -> w = x)) /\
  (exists w (k : Z), setLong c x = (C (lat c) (Ang w (range (long c))) (laterr c) (longerr c), Ok tt) /\ long_in (Ang w (range (long c))) /\
     w = x + IZR k * (2 * PI) /\ (long_in (Ang x (range (long c))) -> w = x)).
Proof.
  intros c x Hc. split.
  - destruct (setLat_spec c x Hc) as (w & E & Hw & Hs & Hk). exists w. repeat split; auto; try apply Hw. intros Hx. apply lat_unique; auto.
  - destruct (setLong_spec c x Hc) as (w & k & E & Hw & Hk). exists w, k. repeat split; auto. intros Hx. exact (long_in_unique _ _ _ _ Hw Hx Hk).
Qed.
Print Assumptions C21_stored.
(** The direction is the one assigned if the latitude's cosine is not negative (latitudes within [-90,90]
    or equivalent to one). *)
Theorem C21_direction : forall r lo la e1 e2, class_range r -> 0 <= cos (rad la) -> exists c, newCoord r lo la e1 e2 = Ok c /\ 
  dir c = unit_of (rad la) (rad lo).
Proof.
  intros r lo la e1 e2 Hr Hp. destruct (newCoord_spec r lo la e1 e2 Hr) as (c & E & Hc & Hs & Hk & k & Hl). exists c. split; [exact E|].
  unfold dir, unit_of. rewrite Hs, Hk, Hl, Rabs_pos_eq, cos_2kpi, sin_2kpi by auto. reflexivity.
Qed.
Print Assumptions C21_direction.
(** A latitude beyond the pole is folded back, but the longitude is not moved to the other side:
    (latitude 100, longitude 0) becomes (80, 0) instead of (80, 180). *)
Theorem C21_over_the_pole_refuted : exists c, newCoord RNone 0 100 None None = Ok c /\ dir c <> unit_of (rad 100) (rad 0).
Proof.
  destruct (newCoord_spec RNone 0 100 None None (or_introl eq_refl)) as (c & E & Hc & Hs & Hk & k & Hl). exists c. split; [exact E|].
  intros H. unfold dir, unit_of in H. injection H as H _ _. rewrite Hl, cos_2kpi, Hk in H.
  assert (cos (rad 100) < 0). { apply cos_lt_0; unfold rad; pose proof PI_RGT_0; lra. }
  rewrite Rabs_left in H by auto. replace (rad 0) with 0 in H by (unfold rad; field). rewrite cos_0 in H. lra.
Qed.
Example C21_ex : class_range (R2 (-180) 180) /\ exists c, newCoord (R2 (-180) 180) 350 45 None None = Ok c /\ coord_ok c /\
  chistory_ok c [CLat (rad 70); CLongA (ODeg 200); CRot (M 0 1 0 (-1) 0 0 0 0 1)].
Proof.
  assert (class_range (R2 (-180) 180)) as H. { right. exists (-180). f_equal. lra. }
  split; [exact H|]. destruct (newCoord_spec (R2 (-180) 180) 350 45 None None H) as (c & E & Hc & _). exists c. split; [exact E|]. split; [exact Hc|].
  assert (range (long c) <> None) as Hn.
  { unfold newCoord in E. destruct (setRange (Ang 0 None) (R2 (-180) 180)) as (lg, [q|ex|]) eqn:El; try discriminate.
    assert (range lg <> None) as Hg.
    { unfold setRange in El. destruct (Rlt_dec 180 (-180)); [lra|]. destruct (Req_EM_T (180 - -180) 360); [|lra].
      unfold applyRange in El. cbn [option_map] in El. destruct (checkRange _ _) as [v|[]|]; try discriminate; injection El as <- _; discriminate. }
    unfold setLat in E. destruct (setRad _ _) as (a1, [q1|e1|]); try discriminate. unfold setLong in E. cbn [long] in E.
    destruct (setRad lg _) as (a2, q2) eqn:E2. apply setRad_cases in E2. destruct E2 as [(e2 & -> & -> & _)|(v & -> & -> & _)]; cbn in E; [discriminate|].
    injection E as <-. exact Hg. }
  cbn [chistory_ok cop_ok]. repeat split; auto. cbn [cstep]. unfold setLat. destruct (setRad _ _). exact Hn.
Qed.

(** ** C22.  [dir c]: the unit vector of a coordinate; [dot]: scalar product. *)
(** The difference of two coordinates is the angle between their directions. *)
Theorem C22_separation : forall a b, decval (coordSub a b) = acos (dot (dir a) (dir b)) /\ 0 <= decval (coordSub a b) <= PI /\
  cos (decval (coordSub a b)) = dot (dir a) (dir b).
Proof.
  intros a b. assert (E : decval (coordSub a b) = acos (dot (dir a) (dir b))).
  { unfold coordSub, sep1, sepval. cbn [decval]. rewrite rad_deg. apply sepRad_acos. }
  rewrite E. split; [auto|]. split; [apply acos_bound|]. apply cos_acos. apply dot_bound; apply dot_unit.
Qed.
Print Assumptions C22_separation.
Lemma sub_eq a b : decval (coordSub a b) = acos (dot (dir a) (dir b)). Proof. apply C22_separation. Qed.
Theorem C22_metric : forall a b c, 
  decval (coordSub a b) = decval (coordSub b a) /\
  (decval (coordSub a b) = 0 <-> dir a = dir b) /\
  decval (coordSub a c) <= decval (coordSub a b) + decval (coordSub b c).
Proof.
  intros a b c. pose proof (dot_unit (decval (lat a)) (decval (long a)) : dot (dir a) (dir a) = 1) as Ua.
  pose proof (dot_unit (decval (lat b)) (decval (long b)) : dot (dir b) (dir b) = 1) as Ub.
  pose proof (dot_unit (decval (lat c)) (decval (long c)) : dot (dir c) (dir c) = 1) as Uc.
  rewrite !sub_eq. split; [now rewrite dot_sym|]. split; [|now apply acos_triangle]. split.
  - intros E. apply dot_one; auto. rewrite <- (cos_acos (dot (dir a) (dir b))) by now apply dot_bound. rewrite E. apply cos_0.
  - intros ->. rewrite Ub. apply acos_1.
Qed.
Print Assumptions C22_metric.
(** Zero separation: the same latitude and, away from the poles, the same longitude. *)
Theorem C22_zero : forall a b, coord_ok a -> coord_ok b -> range (long a) = range (long b) -> decval (coordSub a b) = 0 ->
  decval (lat a) = decval (lat b) /\ (decval (lat a) = PI / 2 \/ decval (lat a) = - (PI / 2) \/ decval (long a) = decval (long b)).
Proof.
  intros a b (_ & La & Ga) (_ & Lb & Gb) Hr H. apply C22_metric in H; [|exact a]. destruct (dir_inj _ _ _ _ La Lb H) as (E & [K|[K|(k & K)]]); split; auto.
  right. right. destruct (long a) as [x r], (long b) as [y r']. cbn in *. subst r'. eapply long_in_unique; eauto.
Qed.
Print Assumptions C22_zero.
(** Rotating by an orthogonal matrix moves the direction by the matrix (the returned latitude and
    longitude say the same), keeps the coordinate well formed and preserves separations; the
    transposed matrix brings it back. *)
Theorem C22_rotation : forall m a b, coord_ok a -> coord_ok b -> laterr a = None -> longerr a = None -> laterr b = None -> longerr b = None -> orthogonal m ->
  exists a' b' la lo r, matrixRotate true true m a = (a', Ok (la, lo)) /\ matrixRotate true true m b = (b', Ok r) /\ coord_ok a' /\
    dir a' = mv m (dir a) /\ unit_of la lo = mv m (dir a) /\ decval (coordSub a' b') = decval (coordSub a b) /\
    exists a'' r', matrixRotate true true (tr m) a' = (a'', Ok r') /\ dir a'' = dir a.
Proof.
  intros m a b Ha Hb A1 A2 B1 B2 Ho.
  destruct (rotate_orth m a Ha) as (a' & la & lo & E & Ha' & D & U & N1 & N2 & _); auto; [now rewrite A1|now rewrite A2|].
  destruct (rotate_orth m b Hb) as (b' & lb & lob & Eb & Hb' & Db & _); auto; [now rewrite B1|now rewrite B2|].
  destruct (rotate_orth (tr m) a' Ha') as (a'' & la2 & lo2 & E2 & _ & D2 & _); auto; [now apply orth_tr|].
  exists a', b', la, lo, (lb, lob). split; [auto|]. split; [auto|]. split; [auto|]. split; [auto|]. split; [auto|]. split.
  - rewrite !sub_eq, D, Db, orth_dot by auto. reflexivity.
  - exists a'', (la2, lo2). split; [exact E2|]. rewrite D2, D, <- mv_mm. unfold orthogonal in Ho. rewrite Ho. apply mv_id.
Qed.
Print Assumptions C22_rotation.
(** An smatrix transform between coordinate classes: the new object's direction is the matrix times the old one's. *)
Theorem C22_smatrix : forall m c r, coord_ok c -> laterr c = None -> longerr c = None -> class_range r -> orthogonal m ->
  exists n, smatrix m c r = Ok n /\ coord_ok n /\ laterr n = None /\ longerr n = None /\ dir n = mv m (dir c).
Proof.
  intros m c r (_ & Hla & _) E1 E2 Hr Ho. unfold smatrix. destruct (newCoord_spec r 0 0 None None Hr) as (n & -> & Hn & _).
  destruct (setLat_spec n (decval (lat c)) Hn) as (w & -> & Hw & Hs & _). cbn [lat long]. rewrite E1, E2.
  assert (w = decval (lat c)) as -> by now apply lat_unique.
  assert (coord_ok (C (Ang (decval (lat c)) latrange) (long n) None None)) as H1. { split; [reflexivity|]. split; [exact Hw|apply Hn]. }
  destruct (setLong_spec _ (decval (long c)) H1) as (w2 & k & -> & Hl & Hk). cbn [lat long laterr longerr] in *.
  destruct (rotate_orth m (C (Ang (decval (lat c)) latrange) (Ang w2 (range (long n))) None None)) as (c' & la & lo & -> & Hc' & D & _ & _ & _ & _ & F1 & F2); auto.
  { split; [reflexivity|]. split; [exact Hw|exact Hl]. }
  exists c'. split; [reflexivity|]. split; [exact Hc'|]. split; [exact F1|]. split; [exact F2|]. rewrite D. f_equal. unfold dir, unit_of. cbn [lat long decval]. rewrite Hk, cos_2kpi, sin_2kpi. reflexivity.
Qed.
Print Assumptions C22_smatrix.
Example C22_ex : let c := C (Ang (rad 45) latrange) (Ang (rad 10) None) None None in
  coord_ok c /\ laterr c = None /\ orthogonal (M 0 1 0 (-1) 0 0 0 0 1).
Proof. cbv zeta. pose proof PI_RGT_0. repeat split; unfold lat_in, rad; cbn; try lra. apply mat_eq; cbn; ring. Qed.
(** With a nonzero error on either coordinate, every rotation (hence every smatrix conversion) raises ValueError. *)
Theorem C22_errors_refuted : forall ap fr m la lo e, e <> 0 -> 
  let c := C la lo (Some e) None in matrixRotate ap fr m c = (c, Raise ValueError).
Proof. intros ap fr m la lo e He c. unfold matrixRotate, c. cbn. destruct (Req_EM_T e 0); [contradiction|reflexivity]. Qed.
(** unitarycheck accepts matrices that are not unitary, the zero matrix included: every point is sent to (0,0). *)
Theorem C22_unitarycheck_refuted : let m := M 0 0 0 0 0 0 0 0 0 in let c := C (Ang (rad 45) latrange) (Ang 1 None) None None in
  ~ orthogonal m /\ matrixRotateChecked true true m c = (C (Ang 0 latrange) (Ang 0 None) None None, Ok (0, 0)).
Proof.
  intros m c. split. { unfold orthogonal, m. intros E. injection E as E _. lra. }
  unfold matrixRotateChecked, matEqb, m. cbn [tr mm m00 m01 m02 m10 m11 m12 m20 m21 m22].
  repeat (destruct (Req_EM_T _ _) as [_|N]; [|exfalso; apply N; ring]). cbn [andb].
  assert (coord_ok c) as Hc. { pose proof PI_RGT_0. pose proof PI2_1. repeat split; unfold lat_in, c, rad; cbn; lra. }
  unfold matrixRotate. cbn [laterr longerr c nz orb]. 
  set (v := mv _ _). assert (v = V 0 0 0) as ->. { apply vec_eq; cbn; ring. }
  unfold sphLat, sphLong. cbn [vx vy vz]. replace (0 * 0 + 0 * 0) with 0 by ring. rewrite sqrt_0.
  assert (atan2 0 0 = 0) as ->. { unfold atan2. destruct (Rlt_dec 0 0); [lra|reflexivity]. }
  pose proof PI_RGT_0. rewrite fixLat_id, pymod_id by lra. rewrite (setRad_lat (lat c) 0); [|reflexivity|unfold lat_in; lra]. reflexivity.
Qed.

(** ** C23.  [is_rotation m]: orthogonal with determinant 1; [rodrigues th k]: right-handed rotation of
    vectors by [th] about the unit vector [k]. *)
(** Letter axes: a rotation of vectors by minus the angle (of the axes by the angle); angles add,
    and the opposite angle is the inverse and the transpose. *)
Theorem C23_letter_axes : forall a b ax, (forall x y z, ax <> AV x y z) ->
  exists m n p i, rotation_matrix a ax false = Ok m /\ rotation_matrix b ax false = Ok n /\ rotation_matrix (a + b) ax false = Ok p /\ rotation_matrix (- a) ax false = Ok i /\
    is_rotation m /\ (forall v, mv m v = rodrigues (- a) (axis_vec ax) v) /\ mm m n = p /\ i = tr m /\ mm m i = idm /\ mm i m = idm.
Proof.
  intros a b ax Hl. destruct (rot_letter_add a b ax Hl) as (m & n & p & E1 & E2 & E3 & E4).
  destruct (rot_letter_inverse a ax Hl) as (m' & i & F1 & F2 & F3 & F4 & F5). assert (m' = m) by congruence. subst m'.
  destruct (rot_letter_rotation a ax m Hl E1) as (R1 & R2). exists m, n, p, i. repeat split; auto; apply R1.
Qed.
Print Assumptions C23_letter_axes.
(** Axis vectors, 0 < angle < 360 degrees: the right-handed rotation by the angle about the axis. *)
Theorem C23_axis_vector : forall a x y z, 0 < a < 2 * PI -> (x, y, z) <> (0, 0, 0) ->
  exists m, rotation_matrix a (AV x y z) false = Ok m /\ forall v, mv m v = rodrigues a (normalise (V x y z)) v.
Proof. exact rot_axis_rodrigues. Qed.
Print Assumptions C23_axis_vector.
(** Whenever a matrix is returned for an axis vector, it is a rotation that fixes the axis, with trace 1+2cos(angle). *)
Theorem C23_axis_rotation : forall a x y z m, rotation_matrix a (AV x y z) false = Ok m -> 
  is_rotation m /\ mv m (V x y z) = V x y z /\ m00 m + m11 m + m22 m = 1 + 2 * cos a.
Proof. exact rot_axis_rotation. Qed.
Print Assumptions C23_axis_rotation.
Theorem C23_degrees : forall a ax, rotation_matrix a ax true = rotation_matrix (rad a) ax false.
Proof. reflexivity. Qed.
(** angle_axis recovers angle (in degrees) and unit axis, for angles below 180 degrees and axes with positive component sum. *)
Theorem C23_angle_axis : forall a x y z d, 0 < a < PI -> 0 < x + y + z ->
  exists m, rotation_matrix a (AV x y z) false = Ok m /\ angle_axis m d = Ok (deg a, Some (normalise (V x y z))).
Proof. exact angle_axis_rot. Qed.
Print Assumptions C23_angle_axis.
(** Rotations of coordinates by these matrices compose. *)
Theorem C23_products : forall m n, is_rotation m -> is_rotation n -> is_rotation (mm m n) /\ is_rotation (tr m).
Proof.
  intros m n (A & B) (D & E). split; split; [now apply orth_mm|rewrite det_mm, B, E; ring|now apply orth_tr|now rewrite det_tr].
Qed.
Print Assumptions C23_products.
Example C23_ex : exists m, rotation_matrix (PI / 2) (AV 0 0 2) false = Ok m /\ mv m (V 1 0 0) = V 0 1 0.
Proof.
  pose proof PI_RGT_0 as HP. destruct (C23_axis_vector (PI / 2) 0 0 2 ltac:(lra)) as (m & E & H); [intros F; injection F as F; lra|].
  exists m. split; [exact E|]. rewrite H. unfold rodrigues. rewrite cos_PI2, sin_PI2.
  assert (normalise (V 0 0 2) = V 0 0 1) as ->.
  { unfold normalise, dot. cbn [vx vy vz]. replace (0 * 0 + 0 * 0 + 2 * 2) with (2 * 2) by ring. rewrite sqrt_square by lra. apply vec_eq; cbn; field. }
  apply vec_eq; unfold dot; cbn; ring.
Qed.
(** The sign of the angle is lost with an axis vector: opposite angles give the same matrix. *)
Theorem C23_opposite_angle_refuted : forall a x y z, rotation_matrix (- a) (AV x y z) false = rotation_matrix a (AV x y z) false.
Proof. intros. unfold rotation_matrix. replace (- a / 2) with (- (a / 2)) by field. rewrite cos_neg. reflexivity. Qed.
(** The z axis as a vector rotates the other way than 'z'. *)
Theorem C23_sense_refuted : forall a, 0 < a < 2 * PI -> exists m, rotation_matrix a (AV 0 0 1) false = Ok m /\ rotation_matrix a AZ false = Ok (tr m).
Proof.
  intros a Ha. destruct (rot_axis_eq a 0 0 1 false) as (E & _). { intros F. injection F as F. lra. }
  { assert (0 < sin (a / 2)) by (apply sin_gt_0; lra). cbv iota. lra. }
  eexists. split; [exact E|]. cbv iota. assert (0 < sin (a / 2)) as S by (apply sin_gt_0; lra). rewrite Rabs_pos_eq by lra.
  unfold rotation_matrix. assert (normalise (V 0 0 1) = V 0 0 1) as ->.
  { unfold normalise, dot. cbn [vx vy vz]. replace (0 * 0 + 0 * 0 + 1 * 1) with 1 by ring. rewrite sqrt_1. apply vec_eq; cbn; field. }
  f_equal. pose proof (cos_half a) as Hc. pose proof (sin_half a) as Hs. pose proof (sc1 (a / 2)) as H1. apply mat_eq; cbn; nra.
Qed.
(** One whole turn, or a zero axis, raises ZeroDivisionError. *)
Theorem C23_zero_division_refuted : rotation_matrix 360 (AV 0 0 1) true = Raise ZeroDivisionError /\
  (forall a, 0 < a < 2 * PI -> rotation_matrix a (AV 0 0 0) false = Raise ZeroDivisionError).
Proof.
  split.
  - unfold rotation_matrix. replace (rad 360 / 2) with PI by (unfold rad; field). rewrite cos_PI.
    destruct (Req_EM_T (-1) 1); [lra|]. destruct (Req_EM_T _ 0) as [|N]; [reflexivity|]. exfalso. apply N. ring.
  - intros a Ha. unfold rotation_matrix. assert (0 < sin (a / 2)) as S by (apply sin_gt_0; lra). pose proof (sc1 (a / 2)).
    destruct (Req_EM_T (cos (a / 2)) 1); [nra|]. destruct (Req_EM_T _ 0) as [|N]; [reflexivity|].
    replace ((0 * 0 + 0 * 0 + 0 * 0) / (1 - cos (a / 2) * cos (a / 2))) with 0 by (field; lra). rewrite sqrt_0. destruct (Req_EM_T 0 0); [reflexivity|lra].
Qed.
(** angle_axis fails on every rotation about 'z' by an angle in (0,180) degrees; rotation_matrix_xy always raises. *)
Theorem C23_angle_axis_refuted : forall a, 0 < a < PI -> exists m, rotation_matrix a AZ false = Ok m /\ forall d, angle_axis m d = Raise ValueError.
Proof.
  intros a Ha. eexists. split; [reflexivity|]. intros d. unfold angle_axis. cbn. pose proof (COS_bound a).
  replace ((cos a + cos a + 1 - 1) / 2) with (cos a) by field. destruct (Rlt_dec _ _) as [B|_]. { exfalso. unfold Rabs in B. destruct (Rcase_abs (cos a)); lra. }
  assert (0 < sin a) by (apply sin_gt_0; lra). destruct (Rlt_dec _ 0); [reflexivity|]. lra.
Qed.
Theorem C23_rotation_matrix_xy_refuted : forall x y, exists e, rotation_matrix_xy x y = Raise e.
Proof. intros. unfold rotation_matrix_xy. destruct (Rlt_dec _ _); eauto. Qed.

(** ** C33: RectangularCoordinates *)
Theorem C33_vectors : forall a b, radd a b = radd b a /\ rsub (radd a b) b = a /\ radd (rsub a b) b = a /\
  0 <= rlength a /\ (rlength a = 0 <-> a = V 0 0 0) /\ rlength (radd a b) <= rlength a + rlength b /\ rlength (rsub a b) = rlength (rsub b a).
Proof.
  intros a b. assert (L0 : forall u, rlength u = sqrt (dot u u)) by reflexivity.
  assert (P : forall u, 0 <= dot u u) by (intros u; unfold dot; nra).
  split; [apply vec_eq; cbn; ring|]. split; [apply vec_eq; cbn; ring|]. split; [apply vec_eq; cbn; ring|]. split; [apply sqrt_pos|]. split; [|split].
  - rewrite L0. split.
    + intros E. destruct (Req_dec (dot a a) 0) as [Z|N]; [|exfalso; apply N; apply sqrt_eq_0; auto].
      unfold dot in Z. apply vec_eq; cbn; nra.
    + intros ->. rewrite dot_zero. apply sqrt_0.
  - rewrite !L0. apply Rsqr_incr_0_var; [|pose proof (sqrt_pos (dot a a)); pose proof (sqrt_pos (dot b b)); lra].
    unfold Rsqr. rewrite sqrt_sqrt by auto. set (p := sqrt (dot a a)). set (q := sqrt (dot b b)).
    assert (Pp : p * p = dot a a) by (apply sqrt_sqrt; auto). assert (Qq : q * q = dot b b) by (apply sqrt_sqrt; auto).
    assert (0 <= p) by apply sqrt_pos. assert (0 <= q) by apply sqrt_pos.
    assert (dot (radd a b) (radd a b) = dot a a + 2 * dot a b + dot b b) as -> by (unfold dot; cbn; ring).
    assert (dot a b <= p * q); [|nra]. pose proof (cauchy a b) as K. rewrite <- Pp, <- Qq in K. 
    destruct (Rle_dec (dot a b) (p * q)); [auto|]. exfalso. assert (0 <= p * q) by nra. nra.
  - rewrite !L0. f_equal. unfold dot. cbn. ring.
Qed.
Print Assumptions C33_vectors.
(** Setting the length keeps the direction; a zero vector raises. *)
Theorem C33_set_length : forall a val, 
  (a = V 0 0 0 -> setLength a val = (a, Raise ZeroDivisionError)) /\
  (a <> V 0 0 0 -> exists a', setLength a val = (a', Ok tt) /\ rlength a' = Rabs val /\ a' = scale (val / rlength a) a).
Proof.
  intros a val. destruct (C33_vectors a a) as (_ & _ & _ & Hp & Hz & _). split.
  - intros ->. unfold setLength. destruct (Req_EM_T _ 0) as [|N]; [reflexivity|]. exfalso. apply N, Hz. reflexivity.
  - intros Hn. unfold setLength. destruct (Req_EM_T _ 0) as [E|N]; [exfalso; apply Hn, Hz, E|]. eexists. split; [reflexivity|]. split.
    + set (l := rlength a) in *. unfold rlength. cbn [vx vy vz].
      assert (l * l = dot a a) as L. { unfold l, rlength, dot. apply sqrt_sqrt. nra. }
      replace (vx a * (val / l) * (vx a * (val / l)) + vy a * (val / l) * (vy a * (val / l)) + vz a * (val / l) * (vz a * (val / l)))
        with (dot a a * (val * val) / (l * l)) by (unfold dot; field; exact N). rewrite <- L.
      replace (l * l * (val * val) / (l * l)) with (Rsqr val) by (unfold Rsqr; field; exact N). apply sqrt_Rsqr_abs.
    + apply vec_eq; cbn; ring.
Qed.
Print Assumptions C33_set_length.
Example C33_ex : exists a', setLength (V 3 0 4) 10 = (a', Ok tt) /\ rlength a' = 10.
Proof.
  destruct (C33_set_length (V 3 0 4) 10) as (_ & H). destruct H as (a' & E & L & _); [intros F; injection F as F; lra|].
  exists a'. split; [exact E|]. rewrite L. apply Rabs_pos_eq. lra.
Qed.

(** ** C34: ellipticities *)
(** The observed ellipticity is between 0 (face on) and the intrinsic one (edge on), increasing with it. *)
Theorem C34_observed : forall ei i, 0 <= ei <= 1 -> 0 <= intrinsic_to_observed ei i <= ei /\
  (sin i = 0 -> intrinsic_to_observed ei i = 0) /\ (cos i = 0 -> intrinsic_to_observed ei i = ei) /\
  (forall ej, ei <= ej <= 1 -> intrinsic_to_observed ei i <= intrinsic_to_observed ej i).
Proof.
  intros ei i H. unfold intrinsic_to_observed. pose proof (sin2_cos2 i) as S. pose proof (Rle_0_sqr (sin i)). pose proof (Rle_0_sqr (cos i)). set (s := (sin i)²) in *. set (c := (cos i)²) in *.
  assert (Q : 0 <= (1 - ei)² <= 1) by (unfold Rsqr; nra).
  split; [|split; [|split]].
  - split.
    + set (q := (1 - ei)²) in *. assert (0 <= q * s) by (apply Rmult_le_pos; lra). assert (0 <= (1 - q) * s) by (apply Rmult_le_pos; lra).
      assert (sqrt (q * s + c) <= sqrt 1) as K by (apply sqrt_le_1; lra). rewrite sqrt_1 in K. lra.
    + assert (1 - ei <= sqrt ((1 - ei)² * s + c)); [|lra]. rewrite <- (sqrt_Rsqr (1 - ei)) at 1 by lra. set (q := (1 - ei)²) in *.
      assert (0 <= (1 - q) * (1 - s)) by (apply Rmult_le_pos; lra). assert (0 <= q * s) by (apply Rmult_le_pos; lra). apply sqrt_le_1; lra.
  - intros Z. assert (s = 0) as -> by (unfold s; rewrite Z; unfold Rsqr; ring). assert (c = 1) as -> by lra. rewrite Rmult_0_r, Rplus_0_l, sqrt_1. ring.
  - intros Z. assert (c = 0) as -> by (unfold c; rewrite Z; unfold Rsqr; ring). assert (s = 1) as -> by lra. rewrite Rmult_1_r, Rplus_0_r, sqrt_Rsqr by lra. ring.
  - intros ej Hj. assert (sqrt ((1 - ej)² * s + c) <= sqrt ((1 - ei)² * s + c)); [|lra]. assert ((1 - ej)² <= (1 - ei)²) by (unfold Rsqr; nra).
    pose proof (Rle_0_sqr (1 - ej)). set (q := (1 - ei)²) in *. set (q' := (1 - ej)²) in *. assert (0 <= q * s) by (apply Rmult_le_pos; lra). assert (0 <= q' * s) by (apply Rmult_le_pos; lra).
    assert (q' * s <= q * s) by (apply Rmult_le_compat_r; lra). apply sqrt_le_1; lra.
Qed.
Print Assumptions C34_observed.
(** observed_to_intrinsic_ellipticity is not the inverse, even edge on. *)
Theorem C34_round_trip_refuted : observed_to_intrinsic (intrinsic_to_observed (3/4) (PI / 2)) (PI / 2) = 1/2.
Proof.
  destruct (C34_observed (3/4) (PI / 2) ltac:(lra)) as (_ & _ & H & _). rewrite (H cos_PI2). unfold observed_to_intrinsic. rewrite cos_PI2, sin_PI2.
  unfold Rsqr. replace (1 - 3 / 4 - 0 * 0) with (1 / 2 * (1 / 2)) by field. rewrite sqrt_square by lra. field.
Qed.
