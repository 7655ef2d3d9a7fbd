(** * SiteProps: C38 (horizontal coordinates, local times) and C30 (rise, set, transit) *)
From Coq Require Import Reals ZArith List Bool Lia Lra.
From Verif Require Import PyBase RealTrig SiteModel.
Import ListNotations.
Open Scope R_scope.

(** ** C38 *)
(** direction of a point with the given latitude-like and longitude-like angle in degrees *)
Definition dirx (la lo : R) := cos (rad la) * cos (rad lo).
Definition diry (la lo : R) := cos (rad la) * sin (rad lo).
Definition dirz (la : R) := sin (rad la).
Lemma rad_range d : -90 <= d <= 90 -> - (PI / 2) <= rad d <= PI / 2. Proof. pose proof PI_RGT_0. unfold rad. intros. nra. Qed.
Lemma horizontal_unit la de h : let z := sin la * sin de + cos la * cos de * cos h in let x := cos la * sin de - sin la * cos de * cos h in let y := - cos de * sin h in x * x + y * y + z * z = 1.
Proof.
  cbv zeta. pose proof (sin2_cos2 la) as A. pose proof (sin2_cos2 de) as B. pose proof (sin2_cos2 h) as C. unfold Rsqr in *.
  transitivity ((sin la * sin la + cos la * cos la) * (sin de * sin de + cos de * cos de * (cos h * cos h)) + cos de * cos de * (sin h * sin h)); [ring|]. rewrite A.
  transitivity (sin de * sin de + cos de * cos de * (sin h * sin h + cos h * cos h)); [ring|]. rewrite C. lra.
Qed.
(** The horizontal coordinates are the equatorial ones turned by the latitude about the east-west axis: with x north, y east, z up the direction
    of (alt,az) is the rotated direction of (dec, hour angle); alt is in [-90,90] and az in [0,360). *)
Theorem C38_horizontal : forall lat ra dec lst, let '(alt, az) := equatorialToHorizontal lat ra dec lst in let H := 15 * (lst - ra) in
  dirx alt az = cos (rad lat) * dirz dec - sin (rad lat) * dirx dec H /\ diry alt az = - diry dec H /\ dirz alt = sin (rad lat) * dirz dec + cos (rad lat) * dirx dec H /\
  -90 <= alt <= 90 /\ 0 <= az < 360.
Proof.
  intros lat ra dec lst. unfold equatorialToHorizontal. pose proof PI_RGT_0 as Pi. assert (PI * (lst - ra) / 12 = rad (15 * (lst - ra))) as -> by (unfold rad; field).
  set (h := rad (15 * (lst - ra))). set (la := rad lat). set (de := rad dec). pose proof (horizontal_unit la de h) as U. cbv zeta in U.
  set (z := sin la * sin de + cos la * cos de * cos h) in *. set (x := cos la * sin de - sin la * cos de * cos h) in *. set (y := - cos de * sin h) in *.
  assert (-1 <= z <= 1) as Z1 by (pose proof (Rle_0_sqr x); pose proof (Rle_0_sqr y); unfold Rsqr in *; split; nra).
  unfold dirx, diry, dirz. rewrite !rad_deg. fold h de. rewrite cos_pymod, sin_pymod, sin_asin, cos_asin by lra. destruct (atan2_polar x y) as (X & Y).
  assert (sqrt (1 - Rsqr z) = sqrt (x * x + y * y)) as E by (f_equal; unfold Rsqr; lra). rewrite E.
  split; [rewrite <- X; unfold x; ring|]. split; [rewrite <- Y; unfold y; ring|]. split; [unfold z; ring|]. split.
  - pose proof (asin_bound z). unfold deg. split; [apply Rmult_le_reg_r with PI; [lra|]|apply Rmult_le_reg_r with PI; [lra|]]; unfold Rdiv; rewrite Rmult_assoc, Rinv_l by lra; lra.
  - pose proof (pymod_range (atan2 y x) (2 * PI)) as Q. set (a := pymod _ _) in *. destruct Q as (Q1 & Q2); [lra|]. unfold deg. split; [apply Rmult_le_pos; [lra|left; apply Rinv_0_lt_compat; lra]|].
    apply Rmult_lt_reg_r with PI; [lra|]. unfold Rdiv. rewrite Rmult_assoc, Rinv_l by lra. lra.
Qed.
Print Assumptions C38_horizontal.
(** So angular separations of objects seen at the same moment are preserved (cosine of the separation = dot product). *)
Definition dot (la lo la' lo' : R) := dirx la lo * dirx la' lo' + diry la lo * diry la' lo' + dirz la * dirz la'.
Theorem C38_separation : forall lat ra dec ra' dec' lst, let '(alt, az) := equatorialToHorizontal lat ra dec lst in let '(alt', az') := equatorialToHorizontal lat ra' dec' lst in
  dot alt az alt' az' = dot dec (15 * ra) dec' (15 * ra').
Proof.
  intros lat ra dec ra' dec' lst. pose proof (C38_horizontal lat ra dec lst) as A. pose proof (C38_horizontal lat ra' dec' lst) as B.
  destruct (equatorialToHorizontal lat ra dec lst) as (alt, az). destruct (equatorialToHorizontal lat ra' dec' lst) as (alt', az'). destruct A as (A1 & A2 & A3 & _), B as (B1 & B2 & B3 & _).
  unfold dot. rewrite A1, A2, A3, B1, B2, B3. pose proof (sin2_cos2 (rad lat)) as S. unfold Rsqr in S.
  transitivity ((sin (rad lat) * sin (rad lat) + cos (rad lat) * cos (rad lat)) * (dirz dec * dirz dec' + dirx dec (15 * (lst - ra)) * dirx dec' (15 * (lst - ra'))) + diry dec (15 * (lst - ra)) * diry dec' (15 * (lst - ra'))); [ring|].
  rewrite S. unfold dirx, diry, dirz. replace (rad (15 * (lst - ra))) with (rad (15 * lst) - rad (15 * ra)) by (unfold rad; lra). replace (rad (15 * (lst - ra'))) with (rad (15 * lst) - rad (15 * ra')) by (unfold rad; lra).
  rewrite !cos_minus, !sin_minus. pose proof (sin2_cos2 (rad (15 * lst))) as T. unfold Rsqr in T. set (cl := cos (rad (15 * lst))) in *. set (sl := sin (rad (15 * lst))) in *.
  transitivity (sin (rad dec) * sin (rad dec') + cos (rad dec) * cos (rad dec') * ((sl * sl + cl * cl) * (cos (rad (15 * ra)) * cos (rad (15 * ra')) + sin (rad (15 * ra)) * sin (rad (15 * ra'))))); [ring|]. rewrite T. ring.
Qed.
Print Assumptions C38_separation.
(** the altitude as a function of the hour angle *)
Definition altitude (lat ra dec lst : R) : R := fst (equatorialToHorizontal lat ra dec lst).
Lemma altitude_sin lat ra dec lst : sin (rad (altitude lat ra dec lst)) = sin (rad lat) * sin (rad dec) + cos (rad lat) * cos (rad dec) * cos (rad (15 * (lst - ra))) /\ -90 <= altitude lat ra dec lst <= 90.
Proof.
  pose proof (C38_horizontal lat ra dec lst) as A. unfold altitude. destruct (equatorialToHorizontal lat ra dec lst) as (alt, az). cbn [fst]. destruct A as (_ & _ & A & B & _). split; [|exact B]. unfold dirz, dirx in A. rewrite A. ring.
Qed.
Lemma sin_inj_deg a b : -90 <= a <= 90 -> -90 <= b <= 90 -> sin (rad a) = sin (rad b) -> a = b.
Proof.
  intros Ha Hb E. apply rad_range in Ha, Hb. assert (rad a = rad b) as Q by (rewrite <- (asin_sin (rad a)), <- (asin_sin (rad b)) by lra; now rewrite E). rewrite <- (deg_rad a), <- (deg_rad b). now rewrite Q.
Qed.
Lemma rad_lt a b : a < b <-> rad a < rad b.
Proof. pose proof PI_RGT_0. unfold rad, Rdiv. split; intros; nra. Qed.
Lemma sin_lt_deg a b : -90 <= a <= 90 -> -90 <= b <= 90 -> (sin (rad a) < sin (rad b) <-> a < b).
Proof.
  intros Ha Hb. apply rad_range in Ha, Hb. rewrite (rad_lt a b). split; intros H.
  - destruct (Rlt_le_dec (rad a) (rad b)) as [|[G|G]]; auto; exfalso; [assert (sin (rad b) < sin (rad a)) by (apply sin_increasing_1; lra); lra|rewrite G in H; exact (Rlt_irrefl _ H)].
  - apply sin_increasing_1; lra.
Qed.
(** One sidereal day later everything is the same; the altitude is the same before and after the meridian; the object is highest on the meridian, at 90 - |lat - dec|. *)
Theorem C38_diurnal : forall lat ra dec lst, equatorialToHorizontal lat ra dec (lst + 24) = equatorialToHorizontal lat ra dec lst /\
  (forall x, altitude lat ra dec (ra + x) = altitude lat ra dec (ra - x)) /\
  (-90 <= lat <= 90 -> -90 <= dec <= 90 -> altitude lat ra dec lst <= altitude lat ra dec ra /\ altitude lat ra dec ra = 90 - Rabs (lat - dec)).
Proof.
  intros lat ra dec lst. pose proof PI_RGT_0 as Pi. split; [|split].
  - unfold equatorialToHorizontal. replace (PI * (lst + 24 - ra) / 12) with (PI * (lst - ra) / 12 + IZR 1 * (2 * PI)) by (field). rewrite sin_2kpi, cos_2kpi. reflexivity.
  - intros x. destruct (altitude_sin lat ra dec (ra + x)) as (A & A'). destruct (altitude_sin lat ra dec (ra - x)) as (B & B'). apply sin_inj_deg; auto. rewrite A, B.
    replace (rad (15 * (ra - x - ra))) with (- rad (15 * (ra + x - ra))) by (unfold rad; field). now rewrite cos_neg.
  - intros Hl Hd. destruct (altitude_sin lat ra dec lst) as (A & A'). destruct (altitude_sin lat ra dec ra) as (B & B'). pose proof (rad_range _ Hl). pose proof (rad_range _ Hd).
    assert (0 <= cos (rad lat)) by (apply cos_ge_0; lra). assert (0 <= cos (rad dec)) by (apply cos_ge_0; lra).
    replace (rad (15 * (ra - ra))) with 0 in B by (unfold rad; field). rewrite cos_0 in B. split.
    + destruct (Rle_lt_dec (altitude lat ra dec lst) (altitude lat ra dec ra)) as [|L]; [auto|]. apply sin_lt_deg in L; auto. rewrite A, B in L. pose proof (COS_bound (rad (15 * (lst - ra)))).
      assert (cos (rad lat) * cos (rad dec) * cos (rad (15 * (lst - ra))) <= cos (rad lat) * cos (rad dec) * 1) by (apply Rmult_le_compat_l; [apply Rmult_le_pos; auto|lra]). lra.
    + apply sin_inj_deg; auto; [unfold Rabs; destruct (Rcase_abs (lat - dec)); lra|]. rewrite B. replace (sin (rad lat) * sin (rad dec) + cos (rad lat) * cos (rad dec) * 1) with (cos (rad lat - rad dec)) by (rewrite cos_minus; ring).
      replace (rad (90 - Rabs (lat - dec))) with (PI / 2 - Rabs (rad lat - rad dec)); [rewrite sin_shift; unfold Rabs; destruct (Rcase_abs _); [now rewrite cos_neg|auto]|].
      replace (rad lat - rad dec) with (rad (lat - dec)) by (unfold rad; field). unfold Rabs. destruct (Rcase_abs (lat - dec)) as [L|L], (Rcase_abs (rad (lat - dec))) as [G|G]; unfold rad in *; try field; exfalso; nra.
Qed.
Print Assumptions C38_diurnal.
(** The celestial pole is seen due north (az 0) at an altitude equal to the latitude. *)
Theorem C38_pole : forall lat ra lst, -90 < lat < 90 -> equatorialToHorizontal lat ra 90 lst = (lat, 0).
Proof.
  intros lat ra lst Hl. pose proof PI_RGT_0 as Pi. unfold equatorialToHorizontal. replace (rad 90) with (PI / 2) by (unfold rad; field). rewrite sin_PI2, cos_PI2.
  pose proof (rad_range lat ltac:(lra)). assert (- (PI / 2) < rad lat < PI / 2) by (unfold rad; split; nra).
  replace (sin (rad lat) * 1 + cos (rad lat) * 0 * cos (PI * (lst - ra) / 12)) with (sin (rad lat)) by ring. rewrite asin_sin, deg_rad by lra. f_equal.
  replace (- 0 * sin (PI * (lst - ra) / 12)) with (cos (rad lat) * sin 0) by (rewrite sin_0; ring). replace (cos (rad lat) * 1 - sin (rad lat) * 0 * cos (PI * (lst - ra) / 12)) with (cos (rad lat) * cos 0) by (rewrite cos_0; ring).
  rewrite atan2_sincos; [rewrite pymod_id by lra; unfold deg; field; lra|apply cos_gt_0; lra|lra].
Qed.
Print Assumptions C38_pole.

(** ** local sidereal and civil time *)
(** equal up to whole multiples of m *)
Definition cong (m x y : R) : Prop := exists k : Z, x = y + IZR k * m.
Lemma cong_refl m x : cong m x x. Proof. exists 0%Z. lra. Qed.
Lemma cong_sym m x y : cong m x y -> cong m y x. Proof. intros (k & ->). exists (- k)%Z. rewrite opp_IZR. lra. Qed.
Lemma cong_trans m x y z : cong m x y -> cong m y z -> cong m x z. Proof. intros (k & ->) (l & ->). exists (k + l)%Z. rewrite plus_IZR. lra. Qed.
Lemma cong_mod m x : cong m (pymod x m) x. Proof. destruct (pymod_cong x m) as (k & E). exists k. exact E. Qed.
Lemma sdk_pos : 1 < sdk < 11 / 10. Proof. unfold sdk. lra. Qed.
Theorem C38_siderial : forall gst longdeg, 0 <= localSiderialTime gst longdeg < 24 /\ cong 24 (localSiderialTime gst longdeg) (gst + longdeg / 15).
Proof. intros. split; [apply pymod_range; lra|apply cong_mod]. Qed.
Print Assumptions C38_siderial.
(** localTime is the first moment of the day at which a clock that shows [lst0] at midnight and runs at the sidereal rate shows [lst]; with utc=True it is shifted by the offset. *)
Theorem C38_localTime : forall lst lst0 off ap, let t := localTime lst lst0 off ap false in
  0 <= t < 24 /\ cong 24 (lst0 + sdk * t) lst /\ (forall t', 0 <= t' -> cong 24 (lst0 + sdk * t') lst -> t <= t') /\
  0 <= localTime lst lst0 off ap true < 24 /\ cong 24 (localTime lst lst0 off ap true) (t - off).
Proof.
  intros lst lst0 off ap. cbv zeta. unfold localTime. pose proof sdk_pos as K. pose proof (pymod_range (lst - lst0) 24 ltac:(lra)) as Q. pose proof (cong_mod 24 (lst - lst0)) as (k & C). set (p := pymod (lst - lst0) 24) in *.
  assert (sdk * (p / sdk) = p) as E by (field; lra). assert (0 < / sdk <= 1) as I by (split; [apply Rinv_0_lt_compat; lra|rewrite <- Rinv_1; apply Rinv_le_contravar; lra]).
  split; [unfold Rdiv; split; nra|]. split; [exists k; lra|]. split.
  - intros t' Ht (j & Ej). apply Rmult_le_reg_l with sdk; [lra|]. rewrite E. assert (sdk * t' = p + IZR (j - k) * 24) as F by (rewrite minus_IZR; lra). assert (0 <= sdk * t') by (apply Rmult_le_pos; lra).
    destruct (Z_lt_le_dec (j - k) 0) as [L|L]; [|apply IZR_le in L; lra]. assert (IZR (j - k) <= -1) by (apply IZR_le; lia). lra.
  - split; [apply pymod_range; lra|apply cong_mod].
Qed.
Print Assumptions C38_localTime.
(** The printed fields are the time. *)
Theorem C38_fields : forall lst, 0 <= lst < 24 -> 
  (let '(h, m, s) := hms_fields lst in (0 <= h < 24)%Z /\ (0 <= m < 60)%Z /\ 0 <= s < 60 /\ lst = IZR h + IZR m / 60 + s / 3600) /\
  (let '(h, m, s, us) := hms_time lst in (0 <= h < 24)%Z /\ (0 <= m < 60)%Z /\ (0 <= s < 60)%Z /\ (0 <= us < 1000000)%Z /\
    0 <= lst * 3600000000 - IZR (h * 3600000000 + m * 60000000 + s * 1000000 + us) < 1).
Proof.
  intros lst H. unfold hms_time, hms_fields. rewrite (pyint_nonneg lst) by lra. pose proof (rfloor_spec lst) as S1. set (h := rfloor lst) in *. set (mn := 60 * (lst - IZR h)).
  assert (0 <= mn < 60) as M by (unfold mn; lra). rewrite (pyint_nonneg mn) by lra. pose proof (rfloor_spec mn) as S2. set (m := rfloor mn) in *. set (sec := 60 * (mn - IZR m)). assert (0 <= sec < 60) as Sc by (unfold sec; lra).
  rewrite (pyint_nonneg sec) by lra. pose proof (rfloor_spec sec) as S3. set (s := rfloor sec) in *. set (f := 1000000 * (sec - IZR s)). assert (0 <= f < 1000000) as F by (unfold f; lra). rewrite (pyint_nonneg f) by lra.
  pose proof (rfloor_spec f) as S4. set (u := rfloor f) in *.
  assert ((0 <= h < 24)%Z) by (split; [apply rfloor_nonneg; lra|apply rfloor_lt; lra]). assert ((0 <= m < 60)%Z) by (split; [apply rfloor_nonneg; lra|apply rfloor_lt; lra]).
  assert ((0 <= s < 60)%Z) by (split; [apply rfloor_nonneg; lra|apply rfloor_lt; lra]). assert ((0 <= u < 1000000)%Z) by (split; [apply rfloor_nonneg; lra|apply rfloor_lt; lra]).
  split; [repeat split; try lia; try lra; unfold sec, mn; field|]. do 4 (split; [auto|]). rewrite !plus_IZR, !mult_IZR. unfold f, sec, mn in *. lra.
Qed.
Print Assumptions C38_fields.
(** [apparent] has no effect and a datetime argument is read as midnight. *)
Theorem C38_apparent_refuted : forall lst lst0 off utc, localTime lst lst0 off true utc = localTime lst lst0 off false utc.
Proof. reflexivity. Qed.
Theorem C38_datetime_refuted : exists h h' lst0, 0 <= h < 24 /\ 0 <= h' < 24 /\ localTime h lst0 0 true false <> localTime h' lst0 0 true false /\ localTime_datetime h lst0 0 true false = localTime_datetime h' lst0 0 true false.
Proof.
  exists 1, 2, 0. split; [lra|]. split; [lra|]. split; [|reflexivity]. unfold localTime. rewrite !pymod_id by lra. pose proof sdk_pos. intros E. apply (f_equal (fun x => x * sdk)) in E.
  replace ((1 - 0) / sdk * sdk) with 1 in E by (field; lra). replace ((2 - 0) / sdk * sdk) with 2 in E by (field; lra). lra.
Qed.

(** ** C30 *)
(** Away from the poles.  [A t] is the altitude at civil time t hours after local midnight, when the local sidereal time is lst0 + sdk*t. *)
Definition off_pole (x : R) : Prop := -90 < x < 90.
Lemma cos_off_pole x : off_pole x -> 0 < cos (rad x). Proof. intros H. pose proof PI_RGT_0. unfold off_pole in H. unfold rad. apply cos_gt_0; nra. Qed.
Definition alt_at (lat ra dec lst0 t : R) : R := altitude lat ra dec (lst0 + sdk * t).
Lemma alt_compare lat dec alt : off_pole lat -> off_pole dec -> -90 <= alt <= 90 -> forall ra lst,
  (altitude lat ra dec lst < alt <-> cos (rad (15 * (lst - ra))) < coslha lat dec alt) /\ (alt < altitude lat ra dec lst <-> coslha lat dec alt < cos (rad (15 * (lst - ra)))) /\
  (altitude lat ra dec lst = alt <-> cos (rad (15 * (lst - ra))) = coslha lat dec alt).
Proof.
  intros Hl Hd Ha ra lst. destruct (altitude_sin lat ra dec lst) as (S & B). apply cos_off_pole in Hl, Hd. set (c := cos (rad (15 * (lst - ra)))) in *.
  assert (0 < cos (rad lat) * cos (rad dec)) as P by (apply Rmult_lt_0_compat; auto). set (p := cos (rad lat) * cos (rad dec)) in *.
  assert (coslha lat dec alt * p = sin (rad alt) - sin (rad lat) * sin (rad dec)) as E by (unfold coslha; fold p; field; lra).
  assert (forall x y, x < y <-> x * p < y * p) as L. { intros x y. split; intros; [apply Rmult_lt_compat_r; auto|apply Rmult_lt_reg_r with p; auto]. }
  split; [rewrite <- sin_lt_deg, S by auto; rewrite (L c), E; split; intros; lra|]. split; [rewrite <- sin_lt_deg, S by auto; rewrite (L _ c), E; split; intros; lra|]. split; intros H.
  - apply Rmult_eq_reg_r with p; [|lra]. rewrite E, <- H, S. ring.
  - apply sin_inj_deg; auto. rewrite S, H. transitivity (sin (rad lat) * sin (rad dec) + coslha lat dec alt * p); [ring|]. rewrite E. ring.
Qed.
(** the altitude at hour angle 15*sdk*x degrees from the transit *)
Lemma alt_at_transit lat ra dec lst0 off ap x : let tr := localTime ra lst0 off ap false in alt_at lat ra dec lst0 (tr + x) = altitude lat ra dec (ra + sdk * x).
Proof.
  cbv zeta. destruct (C38_localTime ra lst0 off ap) as (_ & (k & E) & _). set (tr := localTime _ _ _ _ _) in *. unfold alt_at. replace (lst0 + sdk * (tr + x)) with (ra + sdk * x + IZR k * 24) by lra.
  unfold altitude, equatorialToHorizontal. replace (PI * (ra + sdk * x + IZR k * 24 - ra) / 12) with (PI * (ra + sdk * x - ra) / 12 + IZR k * (2 * PI)) by field. now rewrite cos_2kpi.
Qed.
Definition halfday : R := 12 / sdk.
Lemma halfday_range : 0 < halfday < 12. Proof. pose proof sdk_pos. unfold halfday. split; [apply Rmult_lt_0_compat; [lra|apply Rinv_0_lt_compat; lra]|]. apply Rmult_lt_reg_r with sdk; [lra|]. unfold Rdiv. rewrite Rmult_assoc, Rinv_l by lra. lra. Qed.
Lemma lha_range lat dec alt : 0 <= lha lat dec alt <= halfday.
Proof.
  pose proof sdk_pos. pose proof PI_RGT_0. pose proof (acos_bound (coslha lat dec alt)) as B. unfold lha, halfday. set (a := acos _) in *.
  assert (0 < / sdk) by (apply Rinv_0_lt_compat; lra). assert (0 <= a * 12 / PI <= 12) as Q.
  { split; [apply Rmult_le_pos; [lra|left; apply Rinv_0_lt_compat; lra]|]. apply Rmult_le_reg_r with PI; [lra|]. unfold Rdiv. rewrite Rmult_assoc, Rinv_l by lra. lra. }
  unfold Rdiv in *. split; nra.
Qed.
Lemma cos_lha lat dec alt x : -1 <= coslha lat dec alt <= 1 -> 0 <= x <= halfday ->
  (x < lha lat dec alt <-> coslha lat dec alt < cos (rad (15 * (sdk * x)))) /\ (x = lha lat dec alt <-> coslha lat dec alt = cos (rad (15 * (sdk * x)))).
Proof.
  intros Hc Hx. pose proof sdk_pos as K. pose proof PI_RGT_0 as Pi. pose proof (acos_bound (coslha lat dec alt)) as B. assert (cos (acos (coslha lat dec alt)) = coslha lat dec alt) as C by (apply cos_acos; lra).
  set (a := acos (coslha lat dec alt)) in *. assert (rad (15 * (sdk * lha lat dec alt)) = a) as E by (unfold lha, rad; fold a; field; lra). set (l := lha lat dec alt) in *.
  set (y := rad (15 * (sdk * x))). assert (0 <= y <= PI) as Y. { unfold y, rad, halfday in *. assert (0 <= sdk * x <= 12) as Q. { destruct Hx as (H1 & H2). split; [apply Rmult_le_pos; lra|]. apply (Rmult_le_compat_l sdk) in H2; [|lra]. replace (sdk * (12 / sdk)) with 12 in H2 by (field; lra). exact H2. } split; nra. }
  assert (forall u v, u < v <-> rad (15 * (sdk * u)) < rad (15 * (sdk * v))) as Mo. { intros u v. unfold rad. assert (0 < sdk * PI) by (apply Rmult_lt_0_compat; lra). split; intros; nra. }
  rewrite <- C. split.
  - rewrite Mo, E. fold y. split; intros; [apply cos_decreasing_1; lra|apply cos_decreasing_0; lra].
  - split; [intros ->; unfold y; now rewrite E|]. intros Q. assert (a = y) as Q' by (apply Rle_antisym; apply Rnot_lt_le; intros G; [assert (cos a < cos y) by (apply cos_decreasing_1; lra)|assert (cos y < cos a) by (apply cos_decreasing_1; lra)]; lra).
    apply Rle_antisym; apply Rnot_lt_le; intros G; apply Mo in G; rewrite E in G; fold y in G; lra.
Qed.
(** riseSetTransit (hours): circumpolar iff always above, never visible iff always below, otherwise the object is above the altitude exactly
    within x hours of the transit, and rise and set are x hours before and after it (modulo 24 h).  The transit is where localTime puts it. *)
Theorem C30_riseset : forall lat ra dec lst0 off alt, off_pole lat -> off_pole dec -> -90 <= alt <= 90 ->
  let A := alt_at lat ra dec lst0 in let tr := localTime ra lst0 off true false in
  (forall t, A t <= A tr) /\
  match riseSetTransit lat ra dec lst0 off alt false with
  | (None, None, Some t) => t = tr /\ forall t, alt < A t
  | (None, None, None) => forall t, A t < alt
  | (Some r, Some s, Some t) => t = tr /\ 0 <= r < 24 /\ 0 <= s < 24 /\
      exists x, 0 <= x <= halfday /\ cong 24 r (tr - x) /\ cong 24 s (tr + x) /\ A (tr - x) = alt /\ A (tr + x) = alt /\
        forall d, - halfday <= d <= halfday -> (alt <= A (tr + d) <-> Rabs d <= x)
  | _ => False
  end.
Proof.
  intros lat ra dec lst0 off alt Hl Hd Ha. cbv zeta. set (tr := localTime ra lst0 off true false). pose proof (alt_compare lat dec alt Hl Hd Ha ra) as Cmp.
  assert (forall d, alt_at lat ra dec lst0 (tr + d) = altitude lat ra dec (ra + sdk * d)) as At by (intros; apply alt_at_transit).
  assert (forall d, alt_at lat ra dec lst0 (tr + d) = alt_at lat ra dec lst0 (tr + - d)) as Sy. { intros d. rewrite !At. destruct (C38_diurnal lat ra dec 0) as (_ & S & _). replace (ra + sdk * - d) with (ra - sdk * d) by ring. apply S. }
  split. { intros t. replace t with (tr + (t - tr)) by ring. rewrite At. replace (alt_at lat ra dec lst0 tr) with (altitude lat ra dec ra); [apply C38_diurnal; unfold off_pole in *; lra|]. replace tr with (tr + 0) by ring. rewrite At. f_equal. ring. }
  unfold riseSetTransit. fold tr. set (c := coslha lat dec alt) in *. destruct (Rlt_dec c (-1)) as [C1|C1].
  - split; [auto|]. intros t. apply Cmp. pose proof (COS_bound (rad (15 * (lst0 + sdk * t - ra)))). lra.
  - destruct (Rlt_dec 1 c) as [C2|C2].
    + intros t. apply Cmp. pose proof (COS_bound (rad (15 * (lst0 + sdk * t - ra)))). lra.
    + split; [auto|]. split; [apply pymod_range; lra|]. split; [apply pymod_range; lra|]. set (x := lha lat dec alt). pose proof (lha_range lat dec alt) as Lx. fold x in Lx. exists x. split; [auto|]. split; [apply cong_mod|]. split; [apply cong_mod|].
      assert (alt_at lat ra dec lst0 (tr + x) = alt) as E. { rewrite At. apply Cmp. replace (15 * (ra + sdk * x - ra)) with (15 * (sdk * x)) by ring. symmetry. apply (cos_lha lat dec alt x); auto. fold c. lra. }
      split; [unfold Rminus; rewrite <- Sy; exact E|]. split; [exact E|]. intros d Hdd. assert (alt_at lat ra dec lst0 (tr + d) = alt_at lat ra dec lst0 (tr + Rabs d)) as -> by (unfold Rabs; destruct (Rcase_abs d); auto).
      assert (0 <= Rabs d <= halfday) as Hr by (unfold Rabs; destruct (Rcase_abs d); lra). set (y := Rabs d) in *. rewrite At. destruct (cos_lha lat dec alt y ltac:(fold c; lra) Hr) as (P1 & P2). fold c in P1, P2. fold x in P1, P2.
      destruct (Cmp (ra + sdk * y)) as (Q1 & Q2 & Q3). replace (15 * (ra + sdk * y - ra)) with (15 * (sdk * y)) in * by ring. split; intros G.
      * destruct (Rle_lt_dec y x) as [|L]; [auto|]. exfalso. destruct (Rtotal_order (cos (rad (15 * (sdk * y)))) c) as [W|[W|W]]; [apply Q1 in W; lra|symmetry in W; apply P2 in W; lra|apply P1 in W; lra].
      * destruct G as [G|G]; [apply P1, Q2 in G; lra|]. apply P2 in G. symmetry in G. apply Q3 in G. lra.
Qed.
Print Assumptions C30_riseset.
(** With utc=True all three are the local ones minus the offset, modulo 24 h, and the same are missing. *)
Theorem C30_utc : forall lat ra dec lst0 off alt,
  match riseSetTransit lat ra dec lst0 off alt false, riseSetTransit lat ra dec lst0 off alt true with
  | (r, s, t), (r', s', t') => Forall2 (fun o o' => match o, o' with None, None => True | Some u, Some v => 0 <= v < 24 /\ cong 24 v (u - off) | _, _ => False end) [r; s; t] [r'; s'; t']
  end.
Proof.
  intros lat ra dec lst0 off alt. unfold riseSetTransit. destruct (C38_localTime ra lst0 off true) as (_ & _ & _ & T1 & T2). set (t := localTime ra lst0 off true false) in *. set (t' := localTime ra lst0 off true true) in *.
  destruct (Rlt_dec _ _); [apply Forall2_cons; [exact I|apply Forall2_cons; [exact I|apply Forall2_cons; [split; auto|constructor]]]|]. destruct (Rlt_dec _ _); [repeat apply Forall2_cons; try exact I; constructor|]. set (l := lha lat dec alt).
  constructor; [split; [apply pymod_range; lra|]|constructor; [split; [apply pymod_range; lra|]|constructor; [auto|constructor]]].
  - eapply cong_trans; [apply cong_mod|]. destruct T2 as (k & E). destruct (cong_mod 24 (t - l)) as (j & F). exists (k - j)%Z. rewrite minus_IZR. lra.
  - eapply cong_trans; [apply cong_mod|]. destruct T2 as (k & E). destruct (cong_mod 24 (t + l)) as (j & F). exists (k - j)%Z. rewrite minus_IZR. lra.
Qed.
Print Assumptions C30_utc.
