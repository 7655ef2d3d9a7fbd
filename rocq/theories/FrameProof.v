(** * FrameProof: C121 (conversions between celestial reference systems), C122 (changes of epoch) *)
From Coq Require Import Reals ZArith Lra Lia Psatz List Bool.
From Verif Require Import PyBase RealTrig AngleModel AngleProofs SphereModel SphereProofs RotProofs SphereProps FrameModel.
Import ListNotations.
Open Scope R_scope.

(** ** Rotations *)
Lemma rot_orth ax d : (forall x y z, ax <> AV x y z) -> orthogonal (rot ax d).
Proof. intros N. unfold rot, orthogonal. pose proof (sc1 (rad d)) as S. destruct ax; cbn [rotation_matrix]; [| | |exfalso; now apply (N x y z)]; apply mat_eq; cbn; lra. Qed.
Lemma rotr_orth ax d : (forall x y z, ax <> AV x y z) -> orthogonal (rotr ax d).
Proof. intros N. unfold rotr, orthogonal. pose proof (sc1 d) as S. destruct ax; cbn [rotation_matrix]; [| | |exfalso; now apply (N x y z)]; apply mat_eq; cbn; lra. Qed.
Lemma m3_orth a b c : orthogonal a -> orthogonal b -> orthogonal c -> orthogonal (m3 a b c).
Proof. intros. unfold m3. now repeat apply orth_mm. Qed.
Ltac orth := repeat (apply m3_orth || apply orth_mm || (apply rot_orth; discriminate) || (apply rotr_orth; discriminate) || apply orth_tr).
Lemma idm_orth : orthogonal idm.
Proof. apply mat_eq; cbn; ring. Qed.
Lemma frameBias_orth : orthogonal frameBias. Proof. unfold frameBias. orth. Qed.
Lemma precCap_orth e : orthogonal (precCap e). Proof. unfold precCap. cbv zeta. orth. Qed.
Lemma precJ_orth a b : orthogonal (precJ a b). Proof. unfold precJ. cbv zeta. orth. Qed.
Lemma precB_orth a b : orthogonal (precB a b). Proof. unfold precB. cbv zeta. orth. Qed.
Lemma icrs_fk5_orth e : orthogonal (icrs_fk5 e). Proof. unfold icrs_fk5. cbv zeta. destruct e; orth. Qed.
Lemma fk5_gal_orth e : orthogonal (fk5_gal e). Proof. unfold fk5_gal. cbv zeta. destruct e; orth. Qed.
Lemma fk4_gal_orth e : orthogonal (fk4_gal e). Proof. unfold fk4_gal. cbv zeta. destruct e; orth. Qed.
Lemma gal_sgal_orth : orthogonal gal_sgal. Proof. unfold gal_sgal. orth. Qed.
Lemma orth_inv m : orthogonal m -> mm (tr m) m = idm /\ mm m (tr m) = idm.
Proof. intros O. split; [exact O|now apply orth_right]. Qed.
Lemma inverse_ok m i : inverse m = Ok i -> mm m i = idm /\ mm i m = idm /\ det m <> 0.
Proof.
  unfold inverse. destruct (Req_EM_T (det m) 0) as [|N]; [discriminate|]. intros E. injection E as <-. split; [|split; [|exact N]]; apply mat_eq; unfold smat, adj; cbn [mm m00 m01 m02 m10 m11 m12 m20 m21 m22 idm]; unfold det in *; field; exact N.
Qed.
Lemma rot_0 ax : (forall x y z, ax <> AV x y z) -> rot ax 0 = idm.
Proof. intros N. unfold rot. destruct ax; cbn [rotation_matrix]; [| | |exfalso; now apply (N x y z)]; replace (rad 0) with 0 by (unfold rad; lra); rewrite sin_0, cos_0; apply mat_eq; cbn; ring. Qed.
Lemma rot_add ax a b : (forall x y z, ax <> AV x y z) -> mm (rot ax a) (rot ax b) = rot ax (a + b).
Proof. intros N. unfold rot. assert (E : rad (a + b) = rad a + rad b) by (unfold rad; lra). destruct ax; cbn [rotation_matrix]; [| | |exfalso; now apply (N x y z)]; rewrite E, sin_plus, cos_plus; apply mat_eq; cbn; ring. Qed.
Lemma rot_tr ax a : (forall x y z, ax <> AV x y z) -> tr (rot ax a) = rot ax (- a).
Proof. intros N. unfold rot. assert (E : rad (- a) = - rad a) by (unfold rad; lra). destruct ax; cbn [rotation_matrix]; [| | |exfalso; now apply (N x y z)]; rewrite E, sin_neg, cos_neg; apply mat_eq; cbn; ring. Qed.
(** precession from an epoch to itself is no rotation *)
Theorem no_precession e : precJ e e = idm /\ precB e e = idm /\ precCap 2000 = idm.
Proof.
  assert (Z : forall a b c : R, a = 0 -> b = 0 -> c = 0 -> m3 (rot AZ (- a)) (rot AY b) (rot AZ (- c)) = idm). { intros a b c -> -> ->. rewrite Ropp_0, !rot_0 by discriminate. unfold m3. now rewrite !mm_id_l. }
  split; [|split].
  - unfold precJ. cbv zeta. replace ((e - e) / 100) with 0 by lra. apply Z; lra.
  - unfold precB. cbv zeta. replace ((e - 1850) / 1000 - (e - 1850) / 1000) with 0 by lra. unfold polyval. cbn [fold_left]. apply Z; lra.
  - unfold precCap. cbv zeta. replace ((2000 - 2000) / 100) with 0 by lra. unfold polyval. cbn [fold_left]. match goal with |- m3 (rot AZ ?a) (rot AY ?b) (rot AZ ?c) = _ => replace a with (2.650545 / 3600) by lra; replace b with 0 by lra; replace c with (- (2.650545 / 3600)) by lra end. unfold m3. rewrite (rot_0 AY) by discriminate. rewrite mm_id_r, rot_add by discriminate. rewrite Rplus_opp_r. apply rot_0. discriminate.
Qed.
(** ** smatrix with any regular matrix *)
Definition good (c : coord) : Prop := coord_ok c /\ laterr c = None /\ longerr c = None.
Lemma range_ok f : class_range (longrange f).
Proof. right. destruct f; cbn [longrange]; first [exists 0; f_equal; lra|exists (-180); f_equal; lra]. Qed.
Definition length (v : vec) : R := sqrt (dot v v).
Lemma smatrix_any m c r : good c -> class_range r -> exists n, smatrix m c r = Ok n /\ good n /\ scale (length (mv m (dir c))) (dir n) = mv m (dir c).
Proof.
  intros ((_ & Hla & _) & E1 & E2) Hr. unfold smatrix. destruct (newCoord_spec r 0 0 None None Hr) as (n & -> & Hn & _).
  destruct (setLat_spec n (decval (lat c)) Hn) as (w & -> & Hw & Hs & _). cbn [lat long]. rewrite E1, E2.
  assert (w = decval (lat c)) as -> by now apply lat_unique.
  assert (coord_ok (C (Ang (decval (lat c)) latrange) (long n) None None)) as H1. { split; [reflexivity|]. split; [exact Hw|apply Hn]. }
  destruct (setLong_spec _ (decval (long c)) H1) as (w2 & k & -> & Hl & Hk). cbn [lat long laterr longerr] in *.
  set (c1 := C (Ang (decval (lat c)) latrange) (Ang w2 (range (long n))) None None). assert (Hc1 : coord_ok c1) by (split; [reflexivity|]; split; [exact Hw|exact Hl]).
  destruct (rotate_spec m c1 Hc1 eq_refl eq_refl) as (la & lo & -> & A & B & D). eexists. split; [reflexivity|]. assert (Dc : dir c1 = dir c) by (unfold dir, c1, unit_of; cbn [lat long decval]; now rewrite Hk, cos_2kpi, sin_2kpi). rewrite Dc in D.
  split; [split; [split; [reflexivity|split; [exact A|exact B]]|split; reflexivity]|]. unfold length. symmetry. exact D.
Qed.
Lemma rotated_any o m e : good (at_ o) -> exists o', rotated o m e = (o', Ok tt) /\ good (at_ o') /\ scale (length (mv m (dir (at_ o)))) (dir (at_ o')) = mv m (dir (at_ o)) /\ fr o' = fr o /\ ep o' = Some e /\ dist o' = dist o /\ range (long (at_ o')) = range (long (at_ o)).
Proof.
  intros (Hc & E1 & E2). unfold rotated. destruct (rotate_spec m (at_ o) Hc) as (la & lo & -> & A & B & D); [now rewrite E1|now rewrite E2|]. eexists. split; [reflexivity|]. cbn [at_ fr ep dist]. split; [split; [split; [reflexivity|split; [exact A|exact B]]|split; [exact E1|exact E2]]|]. split; [symmetry; exact D|]. repeat split.
Qed.
Lemma dir_length c : length (dir c) = 1.
Proof. unfold length, dir. rewrite dot_unit. apply sqrt_1. Qed.
Lemma orth_length m v : orthogonal m -> length (mv m v) = length v.
Proof. intros O. unfold length. now rewrite orth_dot. Qed.
Lemma length_scale k v : 0 <= k -> length (scale k v) = k * length v.
Proof.
  intros P. unfold length. replace (dot (scale k v) (scale k v)) with (k * k * dot v v) by (unfold dot, scale; cbn [vx vy vz]; ring). rewrite sqrt_mult; [now rewrite sqrt_square|nra|unfold dot; nra].
Qed.
Lemma mv_scale m k v : mv m (scale k v) = scale k (mv m v).
Proof. apply vec_eq; unfold scale; cbn [mv vx vy vz]; ring. Qed.
Lemma scale_scale a b v : scale a (scale b v) = scale (a * b) v.
Proof. apply vec_eq; unfold scale; cbn [vx vy vz]; ring. Qed.
Lemma length_pos v : v <> V 0 0 0 -> 0 < length v.
Proof. intros N. apply sqrt_lt_R0. now apply dot_pos. Qed.
(** two unit vectors in the same direction are the same *)
Lemma same_dir a b ca cb : 0 < a -> 0 < b -> scale a (dir ca) = scale b (dir cb) -> dir ca = dir cb.
Proof.
  intros A B E. pose proof (f_equal length E) as L. rewrite !length_scale, !dir_length in L by lra. assert (a = b) by lra. subst b. apply (f_equal (scale (/ a))) in E. rewrite !scale_scale, Rinv_l, !scale_1 in E by lra. exact E.
Qed.
Lemma regular_nz m i v : mm i m = idm -> v <> V 0 0 0 -> mv m v <> V 0 0 0.
Proof. intros H N E. apply N. rewrite <- (mv_id v), <- H, mv_mm, E. apply vec_eq; cbn; ring. Qed.
Lemma dir_nz c : dir c <> V 0 0 0.
Proof. intros E. pose proof (dir_length c) as L. rewrite E in L. unfold length, dot in L. cbn [vx vy vz] in L. replace (0 * 0 + 0 * 0 + 0 * 0) with 0 in L by ring. rewrite sqrt_0 in L. lra. Qed.
(** Murray's matrix has an inverse for the years 1000 to 3000 *)
Lemma murrayT_det T : -10 <= T <= 11 -> det (murrayT T) <> 0.
Proof.
  intros H. assert (T2 : 0 <= T * T <= 121) by (split; [nra|assert (0 <= (11 - T) * (11 + T)) by (apply Rmult_le_pos; lra); lra]). assert (T3 : -1210 <= T * (T * T) <= 1331). { set (a := T * T) in *. clearbody a. split; [assert (0 <= (T + 10) * a) by (apply Rmult_le_pos; lra); lra|assert (0 <= (11 - T) * a) by (apply Rmult_le_pos; lra); lra]. }
  enough (0 < det (murrayT T)) by lra. unfold det, murrayT, murray. cbn [m00 m01 m02 m10 m11 m12 m20 m21 m22]. ring_simplify. replace (T ^ 3) with (T * (T * T)) by ring. replace (T ^ 2) with (T * T) by ring. set (a := T * T) in *. set (b := T * a) in *. clearbody b. lra.
Qed.
Lemma det_orth m : orthogonal m -> det m <> 0.
Proof. intros O E. pose proof (f_equal det O) as H. rewrite det_mm, det_tr, E in H. unfold det, idm in H. cbn in H. lra. Qed.
Lemma fk4_regular e : (forall y, e = Some y -> 1000 <= y <= 3000) -> det (fk4_fk5 e) <> 0.
Proof.
  assert (M0 : det murray <> 0). { pose proof (murrayT_det 0 ltac:(lra)) as H. replace (murrayT 0) with murray in H; [exact H|]. apply mat_eq; unfold murrayT, murray; cbn [m00 m01 m02 m10 m11 m12 m20 m21 m22]; lra. }
  destruct e as [y|]; intros H; unfold fk4_fk5; [|exact M0]. destruct (Req_EM_T y 1950); [exact M0|]. cbv zeta. rewrite det_mm. specialize (H y eq_refl). apply Rmult_integral_contrapositive_currified; [|apply det_orth, precB_orth]. apply murrayT_det. lra.
Qed.
Lemma inverse_regular m : det m <> 0 -> exists i, inverse m = Ok i.
Proof. intros N. unfold inverse. destruct (Req_EM_T (det m) 0); [contradiction|eauto]. Qed.
Section Frames.
Variables eps dpsi deps cio eqo era gst xp yp : R -> R.
Notation npb := (npb eps dpsi deps). Notation nutation := (nutation eps dpsi deps). Notation cmatrix := (cmatrix eps dpsi deps cio). Notation trans := (trans eps dpsi deps cio eqo era gst xp yp).
Notation step := (step eps dpsi deps cio eqo era gst xp yp). Notation walk := (walk eps dpsi deps cio eqo era gst xp yp). Notation convert := (convert eps dpsi deps cio eqo era gst xp yp).
Notation wmatrix := (wmatrix xp yp). Notation gcrs_eqx := (gcrs_eqx eps dpsi deps).
Lemma nutation_orth e : orthogonal (nutation e). Proof. unfold FrameModel.nutation. orth. Qed.
Lemma npb_orth e : orthogonal (npb e). Proof. unfold FrameModel.npb. apply m3_orth; [apply nutation_orth|apply precCap_orth|apply frameBias_orth]. Qed.
Lemma wmatrix_orth e : orthogonal (wmatrix e). Proof. unfold FrameModel.wmatrix. orth. Qed.
Lemma row_unit m : orthogonal m -> m20 m * m20 m + m21 m * m21 m + m22 m * m22 m = 1.
Proof. intros O. apply orth_right in O. apply (f_equal m22) in O. cbn in O. exact O. Qed.
Lemma cmatrix_orth e m : cmatrix e = Ok m -> orthogonal m.
Proof.
  unfold FrameModel.cmatrix. destruct e as [t|]; [|intros E; injection E as <-; apply frameBias_orth]. cbv zeta. pose proof (row_unit _ (npb_orth t)) as U. set (x := m20 (npb t)) in *. set (y := m21 (npb t)) in *. set (z := m22 (npb t)) in *. clearbody x y z. destruct (Req_EM_T (1 + z) 0) as [|N]; [discriminate|]. intros E. injection E as <-.
  pose proof (sc1 (cio t)) as S. set (si := sin (cio t)) in *. set (co := cos (cio t)) in *. clearbody si co. set (w := 1 / (1 + z)). assert (W : w * (1 + z) = 1) by (unfold w; field; exact N). clearbody w. assert (W2 : w * (x * x + y * y) = 1 - z) by (replace (x * x + y * y) with ((1 + z) * (1 - z)) by lra; rewrite <- Rmult_assoc, W; ring).
  assert (Q : M ((1 - w * (x * x)) * co - - w * x * y * si) (- w * x * y * co - (1 - w * (y * y)) * si) (- x * co - - y * si) ((1 - w * (x * x)) * si + - w * x * y * co) (- w * x * y * si + (1 - w * (y * y)) * co) (- x * si + - y * co) x y (1 - w * (x * x + y * y)) = mm (M co (- si) 0 si co 0 0 0 1) (M (1 - w * (x * x)) (- w * x * y) (- x) (- w * x * y) (1 - w * (y * y)) (- y) x y z)).
  { apply mat_eq; cbn [mm m00 m01 m02 m10 m11 m12 m20 m21 m22]; try ring. lra. }
  rewrite Q. apply orth_mm; unfold orthogonal; apply mat_eq; cbn [mm tr idm m00 m01 m02 m10 m11 m12 m20 m21 m22]; try lra.
  - transitivity (1 + x * x * (1 - 2 * w + w * (w * (x * x + y * y)))); [ring|]. rewrite W2. replace (1 - 2 * w + w * (1 - z)) with (1 - w * (1 + z)) by ring. rewrite W. ring.
  - transitivity (x * y * (1 - 2 * w + w * (w * (x * x + y * y)))); [ring|]. rewrite W2. replace (1 - 2 * w + w * (1 - z)) with (1 - w * (1 + z)) by ring. rewrite W. ring.
  - transitivity (x * (w * (x * x + y * y) - 1 + z)); [ring|]. rewrite W2. ring.
  - transitivity (x * y * (1 - 2 * w + w * (w * (x * x + y * y)))); [ring|]. rewrite W2. replace (1 - 2 * w + w * (1 - z)) with (1 - w * (1 + z)) by ring. rewrite W. ring.
  - transitivity (1 + y * y * (1 - 2 * w + w * (w * (x * x + y * y)))); [ring|]. rewrite W2. replace (1 - 2 * w + w * (1 - z)) with (1 - w * (1 + z)) by ring. rewrite W. ring.
  - transitivity (y * (w * (x * x + y * y) - 1 + z)); [ring|]. rewrite W2. ring.
  - transitivity (x * (w * (x * x + y * y) - 1 + z)); [ring|]. rewrite W2. ring.
  - transitivity (y * (w * (x * x + y * y) - 1 + z)); [ring|]. rewrite W2. ring.
Qed.
(** the two pairs whose matrix is not a rotation *)
Definition fk45 (f g : frame) : Prop := (f = FK4 /\ g = FK5) \/ (f = FK5 /\ g = FK4).
Lemma fk45_dec f g : {fk45 f g} + {~ fk45 f g}.
Proof. destruct f, g; try (right; intros [(X & Y)|(X & Y)]; discriminate); left; [right|left]; split; reflexivity. Qed.
Lemma to_itrs_orth turn e : orthogonal (to_itrs xp yp turn e).
Proof. destruct e; unfold to_itrs; [|apply idm_orth]. apply orth_mm; [apply wmatrix_orth|apply rot_orth; discriminate]. Qed.
Lemma eqx_cirs_orth e : orthogonal (eqx_cirs eqo e).
Proof. destruct e; unfold eqx_cirs; [apply rot_orth; discriminate|apply idm_orth]. Qed.
Lemma gcrs_eqx_orth e : orthogonal (gcrs_eqx e).
Proof. destruct e; unfold FrameModel.gcrs_eqx; [apply npb_orth|apply frameBias_orth]. Qed.
Theorem registered_rotation f g e m : trans f g e = Some (Ok m) -> ~ fk45 f g -> orthogonal m.
Proof.
  intros H N. destruct f, g; cbn [FrameModel.trans] in H; try discriminate H;
    try (injection H as <-; first [apply icrs_fk5_orth|apply gcrs_eqx_orth|apply eqx_cirs_orth|apply to_itrs_orth|apply fk5_gal_orth|apply fk4_gal_orth|apply gal_sgal_orth|apply orth_tr; first [apply icrs_fk5_orth|apply gcrs_eqx_orth|apply eqx_cirs_orth|apply to_itrs_orth|apply fk5_gal_orth|apply fk4_gal_orth|apply gal_sgal_orth]]);
    try (exfalso; apply N; first [now left|now right]);
    try (injection H as H; unfold ecl in H; destruct e; [injection H as <-; apply rot_orth; discriminate|discriminate]).
  - injection H as H. now apply cmatrix_orth in H.
  - destruct (cmatrix e) as [c|x|] eqn:E; try discriminate. injection H as <-. apply orth_tr. now apply cmatrix_orth in E.
Qed.
(** ** There and back *)
Definition year_ok (f g : frame) (e : option R) : Prop := fk45 f g -> forall y, e = Some y -> 1000 <= y <= 3000.
Theorem registered_back f g e m : trans f g e = Some (Ok m) -> year_ok f g e -> exists m', trans g f e = Some (Ok m') /\ mm m' m = idm /\ mm m m' = idm.
Proof.
  intros H Y. destruct (fk45_dec f g) as [F|F].
  - specialize (Y F). destruct F as [(-> & ->)|(-> & ->)]; cbn [FrameModel.trans] in *.
    + injection H as <-. destruct (inverse_regular _ (fk4_regular e Y)) as (i & E). rewrite E. exists i. split; [reflexivity|]. destruct (inverse_ok _ _ E) as (A & B & _). now split.
    + injection H as H. exists (fk4_fk5 e). split; [reflexivity|]. destruct (inverse_ok _ _ H) as (A & B & _). now split.
  - pose proof (registered_rotation f g e m H F) as O. exists (tr m). split; [|now apply orth_inv]. destruct f, g; cbn [FrameModel.trans] in *; try discriminate H; try (exfalso; apply F; first [now left|now right]); try (injection H as <-; now rewrite ?tr_tr).
    + now rewrite (f_equal (fun x => match x with Some y => y | None => Raise KeyError end) H : cmatrix e = Ok m).
    + destruct (cmatrix e) as [c|x|] eqn:E; try discriminate. injection H as <-. now rewrite tr_tr.
    + injection H as H. unfold ecl in *. destruct e; [|discriminate]. injection H as <-. rewrite rot_tr by discriminate. do 3 f_equal. lra.
    + injection H as H. unfold ecl in *. destruct e; [|discriminate]. injection H as <-. rewrite rot_tr by discriminate. do 3 f_equal. lra.
    + injection H as H. unfold ecl in *. destruct e; [|discriminate]. injection H as <-. rewrite rot_tr by discriminate. do 3 f_equal. lra.
    + injection H as H. unfold ecl in *. destruct e; [|discriminate]. injection H as <-. rewrite rot_tr by discriminate. do 3 f_equal. lra.
Qed.
(** ** One conversion *)
Lemma convert_one o g m : good (at_ o) -> trans (fr o) g (ep o) = Some (Ok m) -> exists r, convert o [g] = Ok r /\ fr r = g /\ ep r = ep o /\ good (at_ r) /\ scale (length (mv m (dir (at_ o)))) (dir (at_ r)) = mv m (dir (at_ o)) /\ dist r = (if keeps_distance (fr o) then dist o else None).
Proof.
  intros G T. destruct (smatrix_any m (at_ o) (longrange g) G (range_ok g)) as (c & E & Gc & D). unfold FrameModel.convert. cbn [FrameModel.walk]. unfold FrameModel.step. rewrite T, E. eexists. split; [reflexivity|]. cbn [fr ep at_ dist]. repeat split; try apply Gc; [exact D|]. destruct (keeps_distance (fr o)); [|reflexivity]. now destruct (dist o).
Qed.
Theorem conversion o g m : good (at_ o) -> trans (fr o) g (ep o) = Some (Ok m) -> ~ fk45 (fr o) g -> exists r, convert o [g] = Ok r /\ fr r = g /\ ep r = ep o /\ good (at_ r) /\ orthogonal m /\ dir (at_ r) = mv m (dir (at_ o)) /\ dist r = (if keeps_distance (fr o) then dist o else None).
Proof.
  intros G T N. destruct (convert_one o g m G T) as (r & E & A & B & C & D & F). exists r. pose proof (registered_rotation _ _ _ _ T N) as O. rewrite (orth_length m _ O), dir_length, scale_1 in D. now repeat split; try apply C.
Qed.
Theorem round_trip o g m : good (at_ o) -> trans (fr o) g (ep o) = Some (Ok m) -> year_ok (fr o) g (ep o) -> exists r o', convert o [g] = Ok r /\ convert r [fr o] = Ok o' /\ fr o' = fr o /\ ep o' = ep o /\ good (at_ o') /\ dir (at_ o') = dir (at_ o).
Proof.
  intros G T Y. destruct (convert_one o g m G T) as (r & E & A & B & Cg & D & _). destruct (registered_back _ _ _ _ T Y) as (m' & T' & I1 & I2). rewrite <- A, <- B in T'. destruct (convert_one r (fr o) m' Cg T') as (o' & E' & A' & B' & Cg' & D' & _). exists r, o'. repeat split; try congruence; try apply Cg'.
  pose proof (length_pos _ (regular_nz m m' _ I1 (dir_nz (at_ o)))) as P. pose proof (length_pos _ (regular_nz m' m _ I2 (dir_nz (at_ r)))) as P'.
  apply (same_dir (length (mv m (dir (at_ o))) * length (mv m' (dir (at_ r)))) 1); [nra|lra|]. rewrite <- scale_scale, D', <- mv_scale, D, <- mv_mm, I1, mv_id. now rewrite scale_1.
Qed.
(** the epoch and the distance of what comes out; distances are lost from galactic, supergalactic and ecliptic coordinates *)
Theorem distance_lost_refuted o g m : good (at_ o) -> trans (fr o) g (ep o) = Some (Ok m) -> fr o = GAL \/ fr o = SGAL \/ fr o = ECLC \/ fr o = ECLQ -> exists r, convert o [g] = Ok r /\ dist r = None.
Proof. intros G T F. destruct (convert_one o g m G T) as (r & E & _ & _ & _ & _ & D). exists r. split; [exact E|]. rewrite D. now destruct F as [-> |[-> |[-> | ->]]]. Qed.
(** ** Several conversions: angles between objects are kept *)
Fixpoint no45 (f : frame) (path : list frame) : Prop := match path with [] => True | g :: r => ~ fk45 f g /\ no45 g r end.
Lemma walk_isometry path : forall a b a', fr a = fr b -> ep a = ep b -> good (at_ a) -> good (at_ b) -> no45 (fr a) path -> walk a path = Ok a' ->
  exists b', walk b path = Ok b' /\ fr a' = fr b' /\ good (at_ a') /\ good (at_ b') /\ dot (dir (at_ a')) (dir (at_ b')) = dot (dir (at_ a)) (dir (at_ b)).
Proof.
  induction path as [|g path I]; intros a b a' F E Ga Gb N W; cbn [FrameModel.walk] in *; [injection W as <-; exists b; now repeat split; try apply Ga; try apply Gb|]. destruct N as (N & N').
  unfold FrameModel.step in *. rewrite <- F, <- E. destruct (trans (fr a) g (ep a)) as [[m|x|]|] eqn:T; try discriminate W. destruct (smatrix_any m (at_ a) (longrange g) Ga (range_ok g)) as (ca & Ea & Gca & Da). destruct (smatrix_any m (at_ b) (longrange g) Gb (range_ok g)) as (cb & Eb & Gcb & Db). rewrite Ea in W. rewrite Eb. pose proof (registered_rotation _ _ _ _ T N) as O. rewrite (orth_length m _ O), dir_length, scale_1 in Da. rewrite (orth_length m _ O), dir_length, scale_1 in Db.
  destruct (I (Obj g ca (default_epoch g) None) (Obj g cb (default_epoch g) None) a' eq_refl eq_refl Gca Gcb N' W) as (b' & Wb & Fb & G1 & G2 & Dd). exists b'. split; [exact Wb|]. split; [exact Fb|]. split; [exact G1|]. split; [exact G2|]. rewrite Dd. cbn [at_]. rewrite Da, Db. now apply orth_dot.
Qed.
Theorem separation_kept path a b a' : fr a = fr b -> ep a = ep b -> good (at_ a) -> good (at_ b) -> no45 (fr a) path -> convert a path = Ok a' -> exists b', convert b path = Ok b' /\ fr a' = fr b' /\ coordSub (at_ a') (at_ b') = coordSub (at_ a) (at_ b).
Proof.
  intros F E Ga Gb N Cv. unfold FrameModel.convert in *. destruct (walk a path) as [r|x|] eqn:W; try discriminate. injection Cv as <-. destruct (walk_isometry path a b r F E Ga Gb N W) as (b' & -> & Fb & _ & _ & D). eexists. split; [reflexivity|]. cbn [fr at_]. split; [exact Fb|]. unfold coordSub. do 3 f_equal. rewrite !sepRad_acos. now rewrite D.
Qed.
(** ** A conversion in two steps: the second is at the epoch the class in between has when nothing is said *)
Theorem two_steps o g h m1 m2 : good (at_ o) -> ~ fk45 (fr o) g -> ~ fk45 g h -> trans (fr o) g (ep o) = Some (Ok m1) -> trans g h (default_epoch g) = Some (Ok m2) -> exists r, convert o [g; h] = Ok r /\ fr r = h /\ ep r = ep o /\ dir (at_ r) = mv m2 (mv m1 (dir (at_ o))).
Proof.
  intros G N1 N2 T1 T2. unfold FrameModel.convert. cbn [FrameModel.walk]. unfold FrameModel.step at 1. rewrite T1. destruct (smatrix_any m1 (at_ o) (longrange g) G (range_ok g)) as (c & -> & Gc & D). unfold FrameModel.step. cbn [fr ep at_]. rewrite T2. destruct (smatrix_any m2 c (longrange h) Gc (range_ok h)) as (c' & -> & _ & D'). eexists. split; [reflexivity|]. cbn [fr ep at_]. repeat split.
  rewrite (orth_length m1 _ (registered_rotation _ _ _ _ T1 N1)), dir_length, scale_1 in D. rewrite (orth_length m2 _ (registered_rotation _ _ _ _ T2 N2)), dir_length, scale_1 in D'. now rewrite D', D.
Qed.
Theorem two_steps_agree o g h m1 m2 : good (at_ o) -> ~ fk45 (fr o) g -> ~ fk45 g h -> ep o = default_epoch g -> trans (fr o) g (ep o) = Some (Ok m1) -> trans g h (ep o) = Some (Ok m2) -> exists r s s', convert o [g; h] = Ok r /\ convert o [g] = Ok s /\ convert s [h] = Ok s' /\ fr r = h /\ fr s' = h /\ ep r = ep s' /\ dir (at_ r) = dir (at_ s').
Proof.
  intros G N1 N2 E T1 T2. destruct (conversion o g m1 G T1 N1) as (s & Es & Fs & Ps & Gs & O1 & D1 & _). rewrite <- Fs, <- Ps in T2. destruct (conversion s h m2 Gs T2) as (s' & Es' & Fs' & Ps' & _ & _ & D2 & _); [now rewrite Fs|]. rewrite Fs, Ps, E in T2. destruct (two_steps o g h m1 m2 G N1 N2 T1 T2) as (r & Er & Fr & Pr & D). exists r, s, s'. repeat split; try congruence.
Qed.
Lemma coord_of v : dot v v = 1 -> exists c, good c /\ dir c = v.
Proof.
  intros U. destruct (sph_spec v) as (E & L & Lo). rewrite U, sqrt_1, scale_1 in E. destruct (newCoord_spec (R2 0 360) (deg (sphLong v)) (deg (sphLat v)) None None (range_ok ICRS)) as (c & Ec & Hc & Hs & Hk & k & Hl). rewrite !rad_deg in *. exists c. split.
  - split; [exact Hc|]. unfold newCoord in Ec. destruct (setRange (Ang 0 None) (R2 0 360)) as (lg, [[]|x|]); try discriminate. destruct (setLat _ _) as (c1, [[]|x|]); try discriminate. destruct (setLong _ _) as (c2, [[]|x|]); try discriminate. injection Ec as <-. split; reflexivity.
  - rewrite E. unfold dir, unit_of. rewrite Hs, Hk, Hl, cos_2kpi, sin_2kpi, Rabs_pos_eq by (apply cos_ge_0; lra). reflexivity.
Qed.
(** GCRS to ITRS: the rotation of the Earth is that of J2000 whatever the epoch *)
Theorem earth_rotation_refuted e m : xp = (fun _ => 0) -> yp = (fun _ => 0) -> cmatrix (Some e) = Ok m -> cos (rad (era 2000)) <> cos (rad (- 0.000047 * ((e - 2000) / 100) / asecperrad + era e)) ->
  exists o r s s', fr o = GCRS /\ ep o = Some e /\ good (at_ o) /\ convert o [CIRS; ITRS] = Ok r /\ convert o [CIRS] = Ok s /\ convert s [ITRS] = Ok s' /\ dir (at_ r) <> dir (at_ s').
Proof.
  intros Hx Hy Cm N. assert (W : forall t, wmatrix t = rot AZ (- 0.000047 * ((t - 2000) / 100) / asecperrad)) by (intros t; unfold FrameModel.wmatrix; rewrite Hx, Hy, Ropp_0, !rot_0 by discriminate; unfold m3; now rewrite !mm_id_l).
  pose proof (cmatrix_orth _ _ Cm) as O. destruct (coord_of (mv (tr m) (V 1 0 0))) as (c & Gc & Dc). { rewrite orth_dot by now apply orth_tr. unfold dot. cbn. ring. }
  set (o := Obj GCRS c (Some e) None). assert (N1 : ~ fk45 GCRS CIRS) by (intros [(X & _)|(X & _)]; discriminate). assert (N2 : ~ fk45 CIRS ITRS) by (intros [(X & _)|(X & _)]; discriminate). assert (T1 : trans (fr o) CIRS (ep o) = Some (Ok m)) by (cbn [FrameModel.trans fr ep o]; now rewrite Cm).
  destruct (two_steps o CIRS ITRS m (to_itrs xp yp era (Some 2000)) Gc N1 N2 T1 eq_refl) as (r & Er & Fr & _ & Dr). destruct (conversion o CIRS m Gc T1 N1) as (s & Es & Fs & Ps & Gs & _ & Ds & _).
  assert (T2 : trans (fr s) ITRS (ep s) = Some (Ok (to_itrs xp yp era (Some e)))) by (rewrite Fs, Ps; reflexivity). destruct (conversion s ITRS _ Gs T2) as (s' & Es' & Fs' & _ & _ & _ & Ds' & _); [now rewrite Fs|].
  exists o, r, s, s'. split; [reflexivity|]. split; [reflexivity|]. split; [exact Gc|]. split; [exact Er|]. split; [exact Es|]. split; [exact Es'|]. rewrite Dr, Ds', Ds. cbn [at_ o]. assert (Q : mv m (dir c) = V 1 0 0) by (rewrite Dc, <- mv_mm, orth_right, mv_id by exact O; reflexivity). rewrite Q.
  unfold to_itrs. rewrite !W, !rot_add by discriminate. intros X. apply (f_equal vx) in X. unfold rot in X. cbn [rotation_matrix mv m00 m01 m02 vx vy vz] in X. apply N. replace (- 0.000047 * ((2000 - 2000) / 100) / asecperrad + era 2000) with (era 2000) in X by (unfold asecperrad; lra). lra.
Qed.
(** ** FK4 to FK5: the direction is that of J2000 but the epoch of the object stays *)
Theorem fk4_label_refuted c0 : exists o s r t, fr o = FK4 /\ ep o = Some 1950 /\ good (at_ o) /\ dist o = c0 /\ convert o [FK5] = Ok s /\ ep s = Some 1950 /\ convert s [ICRS] = Ok r /\ convert o [FK5; ICRS] = Ok t /\ dir (at_ r) <> dir (at_ t).
Proof.
  assert (Dm : det murray <> 0) by (pose proof (fk4_regular None ltac:(discriminate)) as H; exact H). destruct (inverse_regular _ Dm) as (i & Ei). destruct (inverse_ok _ _ Ei) as (I1 & I2 & _).
  set (v := mv i (V 0 0 1)). assert (Nv : v <> V 0 0 0) by (apply (regular_nz i murray); [exact I1|intros X; injection X; lra]). pose proof (length_pos v Nv) as Pv. assert (Dv : dot v v = length v * length v) by (unfold length; rewrite sqrt_sqrt; [reflexivity|unfold dot; nra]).
  destruct (coord_of (scale (/ length v) v)) as (c & Gc & Dc). { replace (dot (scale (/ length v) v) (scale (/ length v) v)) with (/ length v * / length v * dot v v) by (unfold dot, scale; cbn [vx vy vz]; ring). rewrite Dv. field. lra. }
  set (o := Obj FK4 c (Some 1950) c0). assert (Mu : fk4_fk5 (Some 1950) = murray) by (unfold fk4_fk5; destruct (Req_EM_T 1950 1950); [reflexivity|lra]).
  assert (T1 : trans (fr o) FK5 (ep o) = Some (Ok murray)) by (cbn [FrameModel.trans fr ep o]; now rewrite Mu). destruct (convert_one o FK5 murray Gc T1) as (s & Es & Fs & Ps & Gs & Ds & _). cbn [at_ o] in Ds. assert (Mc : mv murray (dir c) = scale (/ length v) (V 0 0 1)) by (rewrite Dc, mv_scale; unfold v; rewrite <- mv_mm, I1, mv_id; reflexivity). rewrite Mc in Ds.
  assert (Pole : forall c', scale (length (mv murray (dir c))) (dir c') = mv murray (dir c) -> dir c' = V 0 0 1). { intros c' H. destruct (coord_of (V 0 0 1)) as (p & _ & Dp); [unfold dot; cbn; ring|]. rewrite <- Dp. apply (same_dir (length (mv murray (dir c))) (/ length v)); [apply length_pos, (regular_nz murray i); [exact I2|apply dir_nz]|now apply Rinv_0_lt_compat|]. now rewrite H, Dp, Mc. }
  rewrite <- Mc in Ds. pose proof (Pole _ Ds) as Dsp. assert (T2 : trans (fr s) ICRS (ep s) = Some (Ok (tr (icrs_fk5 (Some 1950))))) by (rewrite Fs, Ps; reflexivity). assert (N2 : ~ fk45 FK5 ICRS) by (intros [(X & Y)|(X & Y)]; discriminate).
  destruct (conversion s ICRS _ Gs T2) as (r & Er & Fr & _ & _ & _ & Dr & _); [now rewrite Fs|].
  (* directly *)
  destruct (smatrix_any murray c (longrange FK5) Gc (range_ok FK5)) as (c1 & E1 & G1 & D1). pose proof (Pole _ D1) as Dp1. destruct (smatrix_any (tr (icrs_fk5 (Some 2000))) c1 (longrange ICRS) G1 (range_ok ICRS)) as (c2 & E2 & _ & D2). rewrite (orth_length _ _ (orth_tr _ (icrs_fk5_orth _))), dir_length, scale_1 in D2.
  exists o, s, r, (Obj ICRS c2 (Some 1950) (match c0 with None => None | Some d => Some d end)). split; [reflexivity|]. split; [reflexivity|]. split; [exact Gc|]. split; [reflexivity|]. split; [exact Es|]. split; [exact Ps|]. split; [exact Er|]. split.
  { unfold FrameModel.convert. cbn [FrameModel.walk]. unfold FrameModel.step at 1. rewrite T1. cbn [at_ o]. rewrite E1. unfold FrameModel.step. cbn [fr ep at_ FrameModel.trans default_epoch]. rewrite E2. reflexivity. }
  rewrite Dr, Dsp. cbn [at_]. rewrite D2, Dp1. unfold icrs_fk5. cbv zeta. set (B := m3 _ _ _). rewrite !tr_mm, !mv_mm. intros X. assert (OB : orthogonal B) by (unfold B; orth). apply (f_equal (mv B)) in X. rewrite <- !(mv_mm B (tr B)), (orth_right B OB), !mv_id in X.
  destruct (no_precession 2000) as (Np & _). rewrite Np in X. clear - X. apply (f_equal vz) in X. unfold precJ in X. cbv zeta in X. unfold m3, rot in X. cbn [rotation_matrix mm tr mv idm m00 m01 m02 m10 m11 m12 m20 m21 m22 vx vy vz] in X.
  match type of X with context [cos (rad ?th)] => assert (Hc : cos (rad th) = 1) by lra end.
  clear X. revert Hc. match goal with |- cos (rad ?th) = 1 -> _ => set (t := th) end. assert (T : -1 < t < 0) by (unfold t; lra). clearbody t. rewrite <- (cos_neg (rad t)). intros Hc. pose proof PI_RGT_0 as P. assert (0 < - rad t < PI) by (unfold rad; nra). pose proof (cos_decreasing_1 0 (- rad t)) as Cd. rewrite cos_0 in Cd. lra.
Qed.
End Frames.
