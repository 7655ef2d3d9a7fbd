(** * FrameEpoch: C121 (axes of the reference systems), C122 (changes of epoch) *)
From Coq Require Import Reals ZArith Lra Lia Psatz List Bool.
From Verif Require Import PyBase RealTrig AngleModel AngleProofs SphereModel SphereProofs RotProofs SphereProps FrameModel FrameProof.
Import ListNotations.
Open Scope R_scope.

(** the unit vector towards longitude and latitude given in degrees *)
Definition towards (lo la : R) : vec := V (cos (la * PI / 180) * cos (lo * PI / 180)) (cos (la * PI / 180) * sin (lo * PI / 180)) (sin (la * PI / 180)).
Definition pole : vec := V 0 0 1.
Lemma rotZ_to a lo la : mv (rot AZ a) (towards lo la) = towards (lo - a) la.
Proof. unfold towards, rot. cbn [rotation_matrix]. replace ((lo - a) * PI / 180) with (lo * PI / 180 - rad a) by (unfold rad; field). rewrite cos_minus, sin_minus. apply vec_eq; cbn; ring. Qed.
Lemma rotZ_pole a : mv (rot AZ a) pole = pole.
Proof. unfold rot. apply vec_eq; cbn; ring. Qed.
Lemma rad_90 d : rad (90 - d) = PI / 2 - d * PI / 180. Proof. unfold rad. field. Qed.
Lemma rotY_to d : mv (rot AY (90 - d)) (towards 0 d) = pole.
Proof. unfold towards, rot. cbn [rotation_matrix]. rewrite rad_90, cos_shift, sin_shift. replace (0 * PI / 180) with 0 by field. rewrite cos_0, sin_0. pose proof (sc1 (d * PI / 180)) as S. apply vec_eq; cbn; lra. Qed.
Lemma rotY_pole d : mv (rot AY (90 - d)) pole = towards 180 d.
Proof. unfold towards, rot. cbn [rotation_matrix]. rewrite rad_90, cos_shift, sin_shift. replace (180 * PI / 180) with PI by field. rewrite cos_PI, sin_PI. apply vec_eq; cbn; ring. Qed.
Lemma pole_matrix a d l : mv (m3 (rot AZ (180 - l)) (rot AY (90 - d)) (rot AZ a)) (towards a d) = pole /\ mv (m3 (rot AZ (180 - l)) (rot AY (90 - d)) (rot AZ a)) pole = towards l d.
Proof.
  unfold m3. rewrite !mv_mm, rotZ_to, rotZ_pole, (Rminus_diag_eq a a eq_refl), rotY_to, rotZ_pole, rotY_pole, rotZ_to. split; [reflexivity|]. now replace (180 - (180 - l)) with l by lra.
Qed.
Section Frames.
Variables eps dpsi deps cio eqo era gst xp yp : R -> R.
Notation npb := (npb eps dpsi deps). Notation nutation := (nutation eps dpsi deps). Notation cmatrix := (cmatrix eps dpsi deps cio). Notation trans := (trans eps dpsi deps cio eqo era gst xp yp).
Notation convert := (convert eps dpsi deps cio eqo era gst xp yp).
Notation wmatrix := (wmatrix xp yp).
Lemma not45 f g : f <> FK4 -> f <> FK5 -> ~ fk45 f g. Proof. intros A B [(X & _)|(X & _)]; congruence. Qed.
Lemma not45r f g : g <> FK4 -> g <> FK5 -> ~ fk45 f g. Proof. intros A B [(_ & X)|(_ & X)]; congruence. Qed.
(** ** Where the poles go *)
Theorem galactic_poles o : good (at_ o) -> fr o = FK5 -> ep o = None \/ ep o = Some 2000 -> exists r, convert o [GAL] = Ok r /\ fr r = GAL /\
  (dir (at_ o) = towards 192.859508 27.128336 -> dir (at_ r) = pole) /\ (dir (at_ o) = pole -> dir (at_ r) = towards 122.932 27.128336).
Proof.
  intros G F E. assert (T : trans (fr o) GAL (ep o) = Some (Ok (m3 (rot AZ (180 - 122.932)) (rot AY (90 - 27.128336)) (rot AZ 192.859508)))).
  { rewrite F. cbn [FrameModel.trans]. unfold fk5_gal. destruct (no_precession 2000) as (N & _). destruct E as [-> | ->]; now rewrite N, mm_id_r. }
  destruct (conversion _ _ _ _ _ _ _ _ _ o GAL _ G T) as (r & Er & Fr & _ & _ & _ & D & _); [apply not45r; discriminate|]. exists r. split; [exact Er|]. split; [exact Fr|]. rewrite D. destruct (pole_matrix 192.859508 27.128336 122.932) as (A & B). split; intros ->; assumption.
Qed.
Theorem galactic_poles_B1950 o : good (at_ o) -> fr o = FK4 -> ep o = None \/ ep o = Some 1950 -> exists r, convert o [GAL] = Ok r /\ fr r = GAL /\
  (dir (at_ o) = towards 192.25 27.4 -> dir (at_ r) = pole) /\ (dir (at_ o) = pole -> dir (at_ r) = towards 123 27.4).
Proof.
  intros G F E. assert (T : trans (fr o) GAL (ep o) = Some (Ok (m3 (rot AZ (180 - 123)) (rot AY (90 - 27.4)) (rot AZ 192.25)))).
  { rewrite F. cbn [FrameModel.trans]. unfold fk4_gal. destruct (no_precession 1950) as (_ & N & _). destruct E as [-> | ->]; now rewrite N, mm_id_r. }
  destruct (conversion _ _ _ _ _ _ _ _ _ o GAL _ G T) as (r & Er & Fr & _ & _ & _ & D & _); [apply not45r; discriminate|]. exists r. split; [exact Er|]. split; [exact Fr|]. rewrite D. destruct (pole_matrix 192.25 27.4 123) as (A & B). split; intros ->; assumption.
Qed.
Theorem supergalactic_axes o : good (at_ o) -> fr o = GAL -> exists r, convert o [SGAL] = Ok r /\ fr r = SGAL /\
  (dir (at_ o) = towards 47.37 6.32 -> dir (at_ r) = pole) /\ (dir (at_ o) = towards 137.37 0 -> dir (at_ r) = V 1 0 0) /\ (dir (at_ o) = pole -> dir (at_ r) = towards 90 6.32).
Proof.
  intros G F. assert (T : trans (fr o) SGAL (ep o) = Some (Ok (m3 (rot AZ (180 - 90)) (rot AY (90 - 6.32)) (rot AZ 47.37)))).
  { rewrite F. cbn [FrameModel.trans]. unfold gal_sgal. replace (180 - 137.37 + 47.37) with (180 - 90) by lra. reflexivity. }
  destruct (conversion _ _ _ _ _ _ _ _ _ o SGAL _ G T) as (r & Er & Fr & _ & _ & _ & D & _); [apply not45r; discriminate|]. exists r. split; [exact Er|]. split; [exact Fr|]. rewrite D. destruct (pole_matrix 47.37 6.32 90) as (A & B). split; [|split]; intros ->; try assumption.
  unfold m3. rewrite !mv_mm, rotZ_to. replace (137.37 - 47.37) with 90 by lra. unfold towards, rot. cbn [rotation_matrix]. replace (180 - 90) with 90 by lra. replace (rad 90) with (PI / 2) by (unfold rad; field). replace (90 * PI / 180) with (PI / 2) by field. replace (0 * PI / 180) with 0 by field. rewrite cos_PI2, sin_PI2, cos_0, sin_0. apply vec_eq; cbn; ring.
Qed.
(** the ecliptic: the equinox is kept, the pole of the equator is at latitude 90 degrees less the obliquity; an epoch is needed *)
Definition ecliptic_of (f g : frame) : Prop := (f = CIRS /\ g = ECLC) \/ (f = EQX /\ g = ECLQ).
Definition obliquity_J2000 (g : frame) : R := match g with ECLC => 23 + 26 / 60 + 21.406 / 3600 | _ => 23 + 26 / 60 + 21.448 / 3600 end.
Theorem ecliptic_axes o g : good (at_ o) -> ecliptic_of (fr o) g ->
  (ep o = None -> convert o [g] = Raise TypeError) /\
  (forall e, ep o = Some e -> exists r ob, convert o [g] = Ok r /\ fr r = g /\ (e = 2000 -> ob = obliquity_J2000 g) /\
     (dir (at_ o) = V 1 0 0 -> dir (at_ r) = V 1 0 0) /\ (dir (at_ o) = pole -> dir (at_ r) = towards 90 (90 - ob))).
Proof.
  intros G F. split.
  - intros E. unfold FrameModel.convert. cbn [FrameModel.walk]. unfold FrameModel.step. rewrite E. destruct F as [(-> & ->)|(-> & ->)]; reflexivity.
  - intros e E. set (b := match g with ECLC => true | _ => false end). assert (T : trans (fr o) g (ep o) = Some (Ok (rot AX (1 * obliquity b e)))) by (rewrite E; destruct F as [(-> & ->)|(-> & ->)]; reflexivity). rewrite Rmult_1_l in T.
    destruct (conversion _ _ _ _ _ _ _ _ _ o g _ G T) as (r & Er & Fr & _ & _ & _ & D & _); [destruct F as [(-> & ->)|(-> & ->)]; apply not45r; discriminate|]. exists r, (obliquity b e). split; [exact Er|]. split; [exact Fr|]. split.
    + intros ->. unfold b. destruct F as [(_ & ->)|(_ & ->)]; unfold obliquity, polyval, obliquity_J2000; cbn [fold_left]; replace (((2000 - 2000) * 365.25 + 2451545 - 2451545) / 36525) with 0 by lra; lra.
    + rewrite D. split; intros ->.
      * unfold rot. apply vec_eq; cbn; ring.
      * unfold rot, towards, pole. cbn [rotation_matrix]. replace ((90 - obliquity b e) * PI / 180) with (PI / 2 - rad (obliquity b e)) by (unfold rad; field). replace (90 * PI / 180) with (PI / 2) by field. rewrite cos_shift, sin_shift, cos_PI2, sin_PI2. apply vec_eq; cbn; ring.
Qed.
(** the celestial intermediate system and the equinox have the same pole, so the same declinations *)
Lemma cmatrix_row e m : cmatrix (Some e) = Ok m -> m20 m = m20 (npb e) /\ m21 m = m21 (npb e) /\ m22 m = m22 (npb e).
Proof.
  unfold FrameModel.cmatrix. cbv zeta. pose proof (row_unit _ (npb_orth eps dpsi deps e)) as U. set (x := m20 (npb e)) in *. set (y := m21 (npb e)) in *. set (z := m22 (npb e)) in *. clearbody x y z. destruct (Req_EM_T (1 + z) 0) as [|N]; [discriminate|]. intros E. injection E as <-. cbn [m20 m21 m22]. split; [reflexivity|]. split; [reflexivity|]. replace (x * x + y * y) with ((1 + z) * (1 - z)) by lra. field. exact N.
Qed.
Theorem same_declination o e m : good (at_ o) -> fr o = GCRS -> ep o = Some e -> cmatrix (Some e) = Ok m -> exists r s, convert o [CIRS] = Ok r /\ convert o [EQX] = Ok s /\ decval (lat (at_ r)) = decval (lat (at_ s)).
Proof.
  intros G F E Cm. assert (T1 : trans (fr o) CIRS (ep o) = Some (Ok m)) by (rewrite F, E; cbn [FrameModel.trans]; now rewrite Cm). assert (T2 : trans (fr o) EQX (ep o) = Some (Ok (npb e))) by now rewrite F, E.
  destruct (conversion _ _ _ _ _ _ _ _ _ o CIRS _ G T1) as (r & Er & _ & _ & Gr & _ & Dr & _); [apply not45r; discriminate|]. destruct (conversion _ _ _ _ _ _ _ _ _ o EQX _ G T2) as (s & Es & _ & _ & Gs & _ & Ds & _); [apply not45r; discriminate|]. exists r, s. split; [exact Er|]. split; [exact Es|].
  destruct (cmatrix_row _ _ Cm) as (A & B & C). apply (f_equal vz) in Dr. apply (f_equal vz) in Ds. cbn [mv vz] in Dr, Ds. rewrite A, B, C, <- Ds in Dr. destruct Gr as ((_ & Lr & _) & _). destruct Gs as ((_ & Ls & _) & _). unfold lat_in in *. apply sin_inj; [lra|lra|]. unfold dir, unit_of in Dr. cbn [vz] in Dr. exact Dr.
Qed.
(** ** Changes of epoch *)
Variable gcrs_to : obj -> R -> obj * @res unit.
Notation set_epoch := (set_epoch eps dpsi deps cio eqo era gst xp yp gcrs_to).
Definition same_but_epoch (o o' : obj) (e : option R) : Prop := o' = Obj (fr o) (at_ o) e (dist o).
(** the epoch is only a label: when it is removed or first given, and always for ICRS and galactic coordinates *)
Theorem epoch_label o v : v = None \/ ep o = None \/ fr o = ICRS \/ fr o = GAL \/ fr o = SGAL -> exists o', set_epoch o v = (o', Ok tt) /\ same_but_epoch o o' v.
Proof. intros H. unfold FrameModel.set_epoch, same_but_epoch. destruct v as [e|]; [|eexists; split; reflexivity]. destruct (ep o) eqn:E; [|eexists; split; reflexivity]. destruct H as [X|[X|X]]; try discriminate. unfold to_epoch. destruct X as [X|[X|X]]; rewrite X; eexists; split; try reflexivity; unfold label; now rewrite X. Qed.
(** the rotation from epoch to epoch of each class *)
Definition epoch_rotation (f : frame) (e0 e : R) (m : mat) : Prop :=
  match f with
  | FK5 => m = precJ e0 e | FK4 => m = precB e0 e
  | CIRS => exists a b, cmatrix (Some e0) = Ok a /\ cmatrix (Some e) = Ok b /\ m = mm b (tr a)
  | EQX => m = mm (mm (nutation e) (precCap e)) (mm (nutation e0) (tr (precCap e0)))
  | ITRS => m = mm (wmatrix e) (tr (wmatrix e0))
  | _ => False
  end.
Lemma epoch_rotation_orth f e0 e m : epoch_rotation f e0 e m -> orthogonal m.
Proof.
  destruct f; cbn [epoch_rotation]; intros H; try contradiction; try (subst m).
  - apply precJ_orth.
  - apply precB_orth.
  - destruct H as (a & b & A & B & ->). apply cmatrix_orth in A. apply cmatrix_orth in B. apply orth_mm; [exact B|now apply orth_tr].
  - apply orth_mm; apply orth_mm; [apply nutation_orth|apply precCap_orth|apply nutation_orth|apply orth_tr, precCap_orth].
  - apply orth_mm; [apply wmatrix_orth|apply orth_tr, wmatrix_orth].
Qed.
Lemma set_epoch_dir o e0 e m : good (at_ o) -> ep o = Some e0 -> epoch_rotation (fr o) e0 e m -> exists o', set_epoch o (Some e) = (o', Ok tt) /\ good (at_ o') /\ fr o' = fr o /\ ep o' = Some e /\ dist o' = dist o /\ dir (at_ o') = mv m (dir (at_ o)).
Proof.
  intros G E H. pose proof (epoch_rotation_orth _ _ _ _ H) as O. destruct (rotated_any o m e G) as (o' & R & Go & D & F & P & Q & _). rewrite (orth_length m _ O), dir_length, scale_1 in D. exists o'. split; [|now repeat split; try apply Go].
  unfold FrameModel.set_epoch. rewrite E. unfold to_epoch. destruct (fr o); cbn [epoch_rotation] in H; try contradiction; try (subst m; exact R). destruct H as (a & b & A & B & ->). unfold cirs_to. now rewrite A, B.
Qed.
Theorem epoch_separations a b e0 e m : good (at_ a) -> good (at_ b) -> fr a = fr b -> ep a = Some e0 -> ep b = Some e0 -> epoch_rotation (fr a) e0 e m ->
  exists a' b', set_epoch a (Some e) = (a', Ok tt) /\ set_epoch b (Some e) = (b', Ok tt) /\ fr a' = fr a /\ fr b' = fr b /\ ep a' = Some e /\ ep b' = Some e /\ dist a' = dist a /\ good (at_ a') /\ good (at_ b') /\ coordSub (at_ a') (at_ b') = coordSub (at_ a) (at_ b).
Proof.
  intros Ga Gb F Ea Eb H. destruct (set_epoch_dir a e0 e m Ga Ea H) as (a' & Ra & Ga' & Fa & Pa & Qa & Da). rewrite F in H. destruct (set_epoch_dir b e0 e m Gb Eb H) as (b' & Rb & Gb' & Fb & Pb & Qb & Db). exists a', b'. repeat split; try assumption; try apply Ga'; try apply Gb'. unfold coordSub. do 3 f_equal. rewrite !sepRad_acos, Da, Db. f_equal. apply orth_dot. now apply epoch_rotation_orth in H.
Qed.
(** to the epoch it has: nothing moves *)
Theorem own_epoch o e m : good (at_ o) -> ep o = Some e -> fr o = FK5 \/ fr o = FK4 \/ fr o = ITRS \/ (fr o = CIRS /\ cmatrix (Some e) = Ok m) -> exists o', set_epoch o (Some e) = (o', Ok tt) /\ fr o' = fr o /\ ep o' = Some e /\ dist o' = dist o /\ good (at_ o') /\ dir (at_ o') = dir (at_ o).
Proof.
  intros G E H. assert (X : epoch_rotation (fr o) e e idm). { destruct (no_precession e) as (A & B & _). destruct H as [-> |[-> |[-> |(-> & C)]]]; cbn [epoch_rotation]; [now rewrite A|now rewrite B|now rewrite orth_right by apply wmatrix_orth|]. exists m, m. repeat split; try exact C. apply cmatrix_orth in C. now rewrite orth_right. }
  destruct (set_epoch_dir o e e idm G E X) as (o' & R & Go & F & P & Q & D). exists o'. rewrite mv_id in D. now repeat split; try apply Go.
Qed.
(** CIRS and ITRS: from epoch to epoch to epoch is from the first to the last; there and back is where it was *)
Theorem epochs_compose o e0 e1 e2 : good (at_ o) -> ep o = Some e0 -> fr o = ITRS \/ (fr o = CIRS /\ exists a b c, cmatrix (Some e0) = Ok a /\ cmatrix (Some e1) = Ok b /\ cmatrix (Some e2) = Ok c) ->
  exists o1 o2 o3, set_epoch o (Some e1) = (o1, Ok tt) /\ set_epoch o1 (Some e2) = (o2, Ok tt) /\ set_epoch o (Some e2) = (o3, Ok tt) /\ fr o2 = fr o /\ ep o2 = ep o3 /\ dist o2 = dist o /\ dir (at_ o2) = dir (at_ o3) /\ (e2 = e0 -> dir (at_ o2) = dir (at_ o)).
Proof.
  intros G E H. assert (X : exists m1 m2, epoch_rotation (fr o) e0 e1 m1 /\ epoch_rotation (fr o) e1 e2 m2 /\ epoch_rotation (fr o) e0 e2 (mm m2 m1) /\ (e2 = e0 -> mm m2 m1 = idm)).
  { assert (K : forall a b c, orthogonal a -> orthogonal b -> mm (mm c (tr b)) (mm b (tr a)) = mm c (tr a) /\ (c = a -> mm c (tr a) = idm)). { intros a b c A B. split; [now rewrite mm_assoc, <- (mm_assoc (tr b) b), B, mm_id_l|intros ->; now apply orth_right]. }
    destruct H as [-> |(-> & a & b & c & A & B & C)]; cbn [epoch_rotation].
    - destruct (K (wmatrix e0) (wmatrix e1) (wmatrix e2) (wmatrix_orth _ _ _) (wmatrix_orth _ _ _)) as (K1 & K2). do 2 eexists. split; [reflexivity|]. split; [reflexivity|]. rewrite K1. split; [reflexivity|]. intros ->. now apply K2.
    - destruct (K a b c (cmatrix_orth _ _ _ _ _ _ A) (cmatrix_orth _ _ _ _ _ _ B)) as (K1 & K2). exists (mm b (tr a)), (mm c (tr b)). split; [exists a, b; split; [exact A|split; [exact B|reflexivity]]|]. split; [exists b, c; split; [exact B|split; [exact C|reflexivity]]|]. rewrite K1. split; [exists a, c; split; [exact A|split; [exact C|reflexivity]]|]. intros ->. apply K2. congruence. }
  destruct X as (m1 & m2 & X1 & X2 & X3 & X4). destruct (set_epoch_dir o e0 e1 m1 G E X1) as (o1 & R1 & G1 & F1 & P1 & Q1 & D1). rewrite <- F1 in X2. destruct (set_epoch_dir o1 e1 e2 m2 G1 P1 X2) as (o2 & R2 & G2 & F2 & P2 & Q2 & D2). destruct (set_epoch_dir o e0 e2 _ G E X3) as (o3 & R3 & G3 & F3 & P3 & Q3 & D3).
  exists o1, o2, o3. split; [exact R1|]. split; [exact R2|]. split; [exact R3|]. split; [congruence|]. split; [congruence|]. split; [congruence|]. assert (Y : dir (at_ o2) = mv (mm m2 m1) (dir (at_ o))) by now rewrite D2, D1, mv_mm. split; [now rewrite Y, D3|]. intros Z. now rewrite Y, X4, mv_id by exact Z.
Qed.
(** the change of epoch of CIRS coordinates without distance is that through the GCRS *)
Theorem cirs_through_gcrs o e0 e a b : good (at_ o) -> fr o = CIRS -> ep o = Some e0 -> dist o = None -> cmatrix (Some e0) = Ok a -> cmatrix (Some e) = Ok b -> (forall g, fr g = GCRS -> dist g = None -> gcrs_to g e = (Obj GCRS (at_ g) (Some e) None, Ok tt)) ->
  exists o1 g g' o2, set_epoch o (Some e) = (o1, Ok tt) /\ convert o [GCRS] = Ok g /\ set_epoch g (Some e) = (g', Ok tt) /\ convert g' [CIRS] = Ok o2 /\ ep o2 = ep o1 /\ dir (at_ o2) = dir (at_ o1).
Proof.
  intros G F E Di A B K. destruct (set_epoch_dir o e0 e (mm b (tr a)) G E) as (o1 & R1 & G1 & F1 & P1 & Q1 & D1); [rewrite F; exists a, b; split; [exact A|split; [exact B|reflexivity]]|].
  assert (T1 : trans (fr o) GCRS (ep o) = Some (Ok (tr a))) by (rewrite F, E; cbn [FrameModel.trans]; now rewrite A). destruct (conversion _ _ _ _ _ _ _ _ _ o GCRS _ G T1) as (g & Eg & Fg & Pg & Gg & _ & Dg & Qg); [apply not45r; discriminate|].
  assert (Qg' : dist g = None) by (rewrite Qg, Di; now destruct (keeps_distance (fr o))). set (g' := Obj GCRS (at_ g) (Some e) None). assert (T2 : trans (fr g') CIRS (ep g') = Some (Ok b)) by (cbn [g' fr ep FrameModel.trans]; now rewrite B).
  destruct (conversion _ _ _ _ _ _ _ _ _ g' CIRS _ Gg T2) as (o2 & E2 & F2 & P2 & _ & _ & D2 & _); [apply not45r; discriminate|]. exists o1, g, g', o2. split; [exact R1|]. split; [exact Eg|]. split; [|split; [exact E2|]].
  - unfold FrameModel.set_epoch. rewrite Pg, E. unfold to_epoch. rewrite Fg. now apply K.
  - split; [now rewrite P2, P1|]. rewrite D2, D1. cbn [g' at_]. now rewrite Dg, mv_mm.
Qed.
(** Lieske's angles from J2000 over [t] centuries and Newcomb's from an epoch [t1] millennia after B1850 over [t] millennia, in degrees *)
Definition lieske (t : R) : R * R * R :=
  ((2306.2181 * t + 0.30188 * t ^ 2 + 0.017998 * t ^ 3) / 3600, (2306.2181 * t + 1.09468 * t ^ 2 + 0.018203 * t ^ 3) / 3600, (2004.3109 * t - 0.42665 * t ^ 2 - 0.041833 * t ^ 3) / 3600).
Definition newcomb (t1 t : R) : R * R * R :=
  (((23035.545 + 139.720 * t1 + 0.060 * t1 ^ 2) * t + (30.240 - 0.27 * t1) * t ^ 2 + 17.995 * t ^ 3) / 3600,
   ((23035.545 + 139.720 * t1 + 0.060 * t1 ^ 2) * t + (109.480 + 0.39 * t1) * t ^ 2 + 18.325 * t ^ 3) / 3600,
   ((20051.12 - 85.29 * t1 - 0.37 * t1 ^ 2) * t - (42.65 + 0.37 * t1) * t ^ 2 - 41.8 * t ^ 3) / 3600).
Lemma m3_axes ze z th : mv (m3 (rot AZ (- z)) (rot AY th) (rot AZ (- ze))) pole = towards (180 + z) (90 - th) /\ mv (m3 (rot AZ (- z)) (rot AY th) (rot AZ (- ze))) (towards (90 - ze) 0) = towards (90 + z) 0.
Proof.
  unfold m3. rewrite !mv_mm, rotZ_pole, rotZ_to. replace (90 - ze - - ze) with 90 by lra. replace (rot AY th) with (rot AY (90 - (90 - th))) by (f_equal; lra). rewrite rotY_pole, rotZ_to. replace (180 - - z) with (180 + z) by lra. split; [reflexivity|].
  replace (mv (rot AY (90 - (90 - th))) (towards 90 0)) with (towards 90 0); [rewrite rotZ_to; now replace (90 - - z) with (90 + z) by lra|]. unfold towards, rot. cbn [rotation_matrix]. replace (90 * PI / 180) with (PI / 2) by field. replace (0 * PI / 180) with 0 by field. rewrite cos_PI2, sin_PI2, cos_0, sin_0. apply vec_eq; cbn; ring.
Qed.
(** where the pole and the node of the equators go *)
Theorem precession_axes o e0 e ze z th : good (at_ o) -> ep o = Some e0 -> (fr o = FK5 /\ e0 = 2000 /\ (ze, z, th) = lieske ((e - 2000) / 100)) \/ (fr o = FK4 /\ (ze, z, th) = newcomb ((e0 - 1850) / 1000) ((e - e0) / 1000)) ->
  exists o', set_epoch o (Some e) = (o', Ok tt) /\ ep o' = Some e /\ (dir (at_ o) = pole -> dir (at_ o') = towards (180 + z) (90 - th)) /\ (dir (at_ o) = towards (90 - ze) 0 -> dir (at_ o') = towards (90 + z) 0).
Proof.
  intros G E H. assert (X : epoch_rotation (fr o) e0 e (m3 (rot AZ (- z)) (rot AY th) (rot AZ (- ze)))).
  { destruct H as [(-> & -> & H)|(-> & H)]; injection H as -> -> ->; cbn [epoch_rotation].
    - unfold precJ. cbv zeta. set (t := (e - 2000) / 100). replace ((2000 - 2000) / 100) with 0 by lra. clearbody t. f_equal; [f_equal|f_equal|f_equal]; lra.
    - unfold precB. cbv zeta. replace ((e - e0) / 1000) with ((e - 1850) / 1000 - (e0 - 1850) / 1000) by field. set (t := (e - 1850) / 1000 - (e0 - 1850) / 1000). set (t1 := (e0 - 1850) / 1000). clearbody t t1. unfold polyval. cbn [fold_left]. f_equal; [f_equal|f_equal|f_equal]; lra. }
  destruct (set_epoch_dir o e0 e _ G E X) as (o' & R & _ & _ & P & _ & D). exists o'. split; [exact R|]. split; [exact P|]. rewrite D. destruct (m3_axes ze z th) as (A & B). split; intros ->; assumption.
Qed.
(** ** Precession there and back *)
(** FK4: within a hundredth of a second of arc times the square of the millennia between the epochs *)
Lemma precB_back e1 e2 : exists x, mm (precB e2 e1) (precB e1 e2) = m3 (rot AZ (- x)) (rot AY (- (0.01 * ((e2 - e1) / 1000) * ((e2 - e1) / 1000)) / 3600)) (rot AZ x).
Proof.
  unfold precB. cbv zeta. set (t1 := (e1 - 1850) / 1000). set (t2 := (e2 - 1850) / 1000). replace ((e2 - e1) / 1000) with (t2 - t1) by (unfold t1, t2; field). clearbody t1 t2. unfold polyval. cbn [fold_left].
  match goal with |- exists x, mm (m3 (rot AZ ?z') (rot AY ?th') (rot AZ ?ze')) (m3 (rot AZ ?z) (rot AY ?th) (rot AZ ?ze)) = _ => exists ze; assert (H1 : ze' + z = 0) by lra; assert (H2 : z' = - ze) by lra; replace (- (0.01 * (t2 - t1) * (t2 - t1)) / 3600) with (th' + th) by lra; rewrite H2; clear H2; set (p := ze) in *; set (q := th) in *; set (q' := th') in *; set (w := z) in *; set (w' := ze') in * end.
  clearbody p q q' w w'. rewrite <- (rot_add AY q' q) by discriminate. unfold m3. rewrite !mm_assoc. do 2 f_equal. rewrite <- (mm_assoc (rot AZ w')), rot_add by discriminate. now rewrite H1, rot_0, mm_id_l by discriminate.
Qed.
Theorem fk4_there_and_back o e0 e : good (at_ o) -> fr o = FK4 -> ep o = Some e0 -> exists o1 o2, set_epoch o (Some e) = (o1, Ok tt) /\ set_epoch o1 (Some e0) = (o2, Ok tt) /\ ep o2 = ep o /\ dist o2 = dist o /\
  cos (0.01 / 3600 * ((e - e0) / 1000) * ((e - e0) / 1000) * PI / 180) <= dot (dir (at_ o)) (dir (at_ o2)).
Proof.
  intros G F E. destruct (set_epoch_dir o e0 e _ G E ltac:(rewrite F; reflexivity)) as (o1 & R1 & G1 & F1 & P1 & Q1 & D1). destruct (set_epoch_dir o1 e e0 (precB e e0) G1 P1) as (o2 & R2 & G2 & F2 & P2 & Q2 & D2); [rewrite F1, F; reflexivity|]. exists o1, o2. split; [exact R1|]. split; [exact R2|]. split; [congruence|]. split; [congruence|].
  rewrite D2, D1, <- mv_mm. destruct (precB_back e0 e) as (x & ->). set (ph := - (0.01 * ((e - e0) / 1000) * ((e - e0) / 1000)) / 3600). assert (C : cos (0.01 / 3600 * ((e - e0) / 1000) * ((e - e0) / 1000) * PI / 180) = cos (rad ph)). { rewrite <- (cos_neg (rad ph)). f_equal. unfold rad, ph. field. } rewrite C. clear C. clearbody ph. unfold m3. rewrite !mv_mm. set (v := mv (rot AZ x) (dir (at_ o))).
  assert (Hv : dir (at_ o) = mv (rot AZ (- x)) v). { unfold v. rewrite <- mv_mm, rot_add, Rplus_opp_l, rot_0, mv_id by discriminate. reflexivity. } rewrite Hv at 1. rewrite orth_dot by (apply rot_orth; discriminate). assert (U : dot v v = 1) by (unfold v; rewrite orth_dot by (apply rot_orth; discriminate); apply dot_unit). clearbody v. unfold rot. cbn [rotation_matrix]. destruct v as [a b c]. unfold dot in *. cbn [mv m00 m01 m02 m10 m11 m12 m20 m21 m22 vx vy vz] in *. pose proof (COS_bound (rad ph)) as Cb. set (k := cos (rad ph)) in *. clearbody k. assert (0 <= b * b) by nra. assert (0 <= (1 - k) * (b * b)) by (apply Rmult_le_pos; lra). replace (a * (k * a + 0 * b + - sin (rad ph) * c) + b * (0 * a + 1 * b + 0 * c) + c * (sin (rad ph) * a + 0 * b + k * c)) with (k * (a * a + b * b + c * c) + (1 - k) * (b * b)) by ring. rewrite U. lra.
Qed.
(** FK5: the polynomials for zeta and z do not fit together and the object does not come back *)
Theorem fk5_there_and_back_refuted o : good (at_ o) -> fr o = FK5 -> ep o = Some 2000 -> dir (at_ o) = pole -> exists o1 o2, set_epoch o (Some 2100) = (o1, Ok tt) /\ set_epoch o1 (Some 2000) = (o2, Ok tt) /\ ep o2 = ep o /\ dir (at_ o2) <> dir (at_ o).
Proof.
  intros G F E Dp. destruct (set_epoch_dir o 2000 2100 _ G E ltac:(rewrite F; reflexivity)) as (o1 & R1 & G1 & F1 & P1 & Q1 & D1). destruct (set_epoch_dir o1 2100 2000 (precJ 2100 2000) G1 P1) as (o2 & R2 & G2 & F2 & P2 & Q2 & D2); [rewrite F1, F; reflexivity|]. exists o1, o2. split; [exact R1|]. split; [exact R2|]. split; [congruence|]. rewrite D2, D1, Dp. clear. unfold precJ. cbv zeta.
  match goal with |- mv (m3 (rot AZ ?z') (rot AY ?th') (rot AZ ?ze')) (mv (m3 (rot AZ ?z) (rot AY ?th) (rot AZ ?ze)) pole) <> _ => assert (H1 : ze' + z = - 0.000688 / 3600) by lra; assert (H2 : th' = - th) by lra; assert (H3 : 0 < th < 1) by lra; rewrite H2; clear H2; set (q := th) in *; set (w := z) in *; set (w' := ze') in *; set (u := z'); set (u' := ze) end. clearbody q w w' u u'.
  unfold m3. rewrite !mv_mm, rotZ_pole. rewrite <- (mv_mm (rot AZ w')), rot_add, H1 by discriminate. intros X. apply (f_equal vz) in X. unfold rot, pole in X. cbn [rotation_matrix mv m00 m01 m02 m10 m11 m12 m20 m21 m22 vx vy vz] in X. assert (Rq : rad (- q) = - rad q) by (unfold rad; lra). rewrite Rq, sin_neg, cos_neg in X. pose proof (sc1 (rad q)) as S. pose proof PI_RGT_0 as P. pose proof PI_4 as P4.
  assert (Sq : 0 < sin (rad q)) by (apply sin_gt_0; unfold rad; nra). set (d := rad (- 0.000688 / 3600)) in *. assert (Hd : 0 < - d < PI) by (unfold d, rad; lra). pose proof (cos_decreasing_1 0 (- d)) as Cd. rewrite cos_0, cos_neg in Cd. assert (cos d < 1) by lra. assert (0 < sin (rad q) * sin (rad q) * (1 - cos d)) by (apply Rmult_lt_0_compat; [apply Rmult_lt_0_compat|]; lra). nra.
Qed.
(** equinox: at epoch 2000 the epoch 2000 nutates the object twice *)
Theorem equinox_own_epoch_refuted : mm (nutation 2000) (nutation 2000) <> idm -> exists o o', good (at_ o) /\ fr o = EQX /\ ep o = Some 2000 /\ set_epoch o (Some 2000) = (o', Ok tt) /\ ep o' = ep o /\ dir (at_ o') <> dir (at_ o).
Proof.
  intros N. assert (H : epoch_rotation EQX 2000 2000 (mm (nutation 2000) (nutation 2000))) by (cbn [epoch_rotation]; destruct (no_precession 2000) as (_ & _ & ->); rewrite mm_id_r; f_equal; symmetry; assert (I : tr idm = idm) by reflexivity; rewrite I; apply mm_id_r).
  set (m := mm (nutation 2000) (nutation 2000)) in *.
  assert (K : forall v, dot v v = 1 -> mv m v <> v -> exists o o', good (at_ o) /\ fr o = EQX /\ ep o = Some 2000 /\ set_epoch o (Some 2000) = (o', Ok tt) /\ ep o' = ep o /\ dir (at_ o') <> dir (at_ o)).
  { intros v U X. destruct (coord_of v U) as (c & Gc & Dc). set (o := Obj EQX c (Some 2000) None). destruct (set_epoch_dir o 2000 2000 m Gc eq_refl H) as (o' & R & _ & _ & P & _ & D). exists o, o'. repeat split; try apply Gc; try assumption. rewrite D. cbn [at_ o]. now rewrite Dc. }
  assert (V3 : forall v w : vec, {v = w} + {v <> w}). { intros [a b c] [a' b' c']. destruct (Req_EM_T a a') as [-> |]; [|right; congruence]. destruct (Req_EM_T b b') as [-> |]; [|right; congruence]. destruct (Req_EM_T c c') as [-> |]; [now left|right; congruence]. }
  destruct (V3 (mv m (V 1 0 0)) (V 1 0 0)) as [A|A]; [|apply (K (V 1 0 0) ltac:(unfold dot; cbn; ring) A)]. destruct (V3 (mv m (V 0 1 0)) (V 0 1 0)) as [B|B]; [|apply (K (V 0 1 0) ltac:(unfold dot; cbn; ring) B)]. destruct (V3 (mv m (V 0 0 1)) (V 0 0 1)) as [C|C]; [|apply (K (V 0 0 1) ltac:(unfold dot; cbn; ring) C)].
  exfalso. apply N. destruct m as [x1 x2 x3 y1 y2 y3 z1 z2 z3]. injection A as A1 A2 A3. injection B as B1 B2 B3. injection C as C1 C2 C3. apply mat_eq; cbn; lra.
Qed.
(** ecliptic coordinates: the assignment moves the object, raises AttributeError and leaves the epoch *)
Theorem ecliptic_epoch_refuted o e0 e a b : good (at_ o) -> fr o = ECLC -> ep o = Some e0 -> cmatrix (Some e0) = Ok a -> cmatrix (Some e) = Ok b -> exists o', set_epoch o (Some e) = (o', Raise AttributeError) /\ ep o' = Some e0 /\
  dir (at_ o') = mv (mm (mm (rot AX (obliquity true e)) (mm b (tr a))) (rot AX (- obliquity true e0))) (dir (at_ o)).
Proof.
  intros G F E A B. assert (T1 : trans (fr o) CIRS (ep o) = Some (Ok (rot AX (- obliquity true e0)))) by (rewrite F, E; cbn [FrameModel.trans]; unfold ecl; do 3 f_equal; lra). destruct (conversion _ _ _ _ _ _ _ _ _ o CIRS _ G T1) as (q & Eq & Fq & Pq & Gq & _ & Dq & _); [apply not45r; discriminate|].
  destruct (rotated_any q (mm b (tr a)) e Gq) as (q' & Rq & Gq' & Dq' & Fq' & Pq' & _). assert (Oab : orthogonal (mm b (tr a))) by (apply orth_mm; [now apply cmatrix_orth in B|apply orth_tr; now apply cmatrix_orth in A]). rewrite (orth_length _ _ Oab), dir_length, scale_1 in Dq'.
  assert (T2 : trans (fr q') ECLC (ep q') = Some (Ok (rot AX (obliquity true e)))) by (rewrite Fq', Fq, Pq'; cbn [FrameModel.trans]; unfold ecl; do 3 f_equal; lra). destruct (conversion _ _ _ _ _ _ _ _ _ q' ECLC _ Gq' T2) as (n & En & Fn & _ & Gn & _ & Dn & _); [apply not45r; discriminate|].
  eexists. split; [|split].
  - unfold FrameModel.set_epoch. rewrite E. unfold to_epoch. rewrite F. unfold ecl_to. rewrite Eq. unfold cirs_to. rewrite A, B, Rq, F, En. destruct G as (_ & G1 & _). rewrite G1. reflexivity.
  - exact E.
  - cbn [at_]. unfold dir at 1. cbn [lat long decval]. fold (dir (at_ n)). now rewrite Dn, Dq', Dq, !mv_mm.
Qed.
End Frames.
