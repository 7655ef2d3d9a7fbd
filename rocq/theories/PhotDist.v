(** * PhotDist: C44 (distance moduli, surface brightness) *)
From Coq Require Import List Bool Reals Lra Lia String.
From Coquelicot Require Import Coquelicot.
From Verif Require Import PyBase CosmoDistModel CosmoDistProps CosmoDistInt PhotModel PhotProps.
Import ListNotations.
Open Scope R_scope.

Lemma log10_pow x : log10 (Rpower 10 x) = x. Proof. unfold log10, Rpower. rewrite ln_exp. pose proof ln10_pos. field. lra. Qed.
Lemma pow_log10 x : 0 < x -> Rpower 10 (log10 x) = x. Proof. intros H. unfold log10, Rpower. pose proof ln10_pos. replace (ln x / ln 10 * ln 10) with (ln x) by (field; lra). now apply exp_ln. Qed.
Lemma log10_mult x y : 0 < x -> 0 < y -> log10 (x * y) = log10 x + log10 y. Proof. intros. unfold log10. rewrite ln_mult by auto. unfold Rdiv. ring. Qed.
Lemma log10_10 : log10 10 = 1. Proof. unfold log10. pose proof ln10_pos. field. lra. Qed.
Lemma log10_1 : log10 1 = 0. Proof. unfold log10. rewrite ln_1. unfold Rdiv. ring. Qed.
Lemma log10_pown x n : 0 < x -> log10 (x ^ n) = INR n * log10 x.
Proof. intros H. unfold log10. rewrite ln_pow by auto. unfold Rdiv. ring. Qed.
Lemma log10_1e6 : log10 (10 ^ 6) = 6. Proof. rewrite log10_pown, log10_10 by lra. cbn [INR]. ring. Qed.
Lemma log10_pos x : 1 < x -> 0 < log10 x. Proof. intros H. unfold log10. apply Rdiv_lt_0_compat; [rewrite <- ln_1; apply ln_increasing; lra|apply ln10_pos]. Qed.

(** Without the cosmological calculation, distance modulus and distance (pc) are inverse: 10 pc is 0, ten times as far is 5 more; 'warn' does not change values. *)
Theorem C44_modulus : forall w, (forall x, 0 < x -> exists m, distance_modulus w x IDistance None AFalse = Ok (m, None) /\ distance_modulus w x IDistance None AWarn = Ok (m, None) /\ distance_from_modulus m None = (x, None) /\
     distance_modulus w (10 * x) IDistance None AFalse = Ok (m + 5, None)) /\
  (forall m, exists x, distance_from_modulus m None = (x, None) /\ 0 < x /\ distance_modulus w x IDistance None AFalse = Ok (m, None)) /\
  distance_modulus w 10 IDistance None AFalse = Ok (0, None) /\ forall x dx a, distance_modulus w x IOther dx a = Raise ValueError.
Proof.
  intros w. split; [|split; [|split]].
  - intros x Hx. exists (5 * log10 x - 5). split; [reflexivity|]. split; [reflexivity|]. split.
    + unfold distance_from_modulus. replace (1 + (5 * log10 x - 5) / 5) with (log10 x) by field. now rewrite pow_log10.
    + unfold distance_modulus. cbn [bindr]. rewrite log10_mult, log10_10 by lra. do 2 f_equal. ring.
  - intros m. exists (Rpower 10 (1 + m / 5)). split; [reflexivity|]. split; [apply exp_pos|]. unfold distance_modulus. cbn [bindr]. rewrite log10_pow. do 2 f_equal. field.
  - unfold distance_modulus. cbn [bindr]. rewrite log10_10. do 2 f_equal. ring.
  - reflexivity.
Qed.
Print Assumptions C44_modulus.
(** Absolute and apparent magnitudes are inverse for every kind of input; both fail exactly when the modulus fails; the difference is the modulus. *)
Theorem C44_magnitudes : forall w m x t a,
  (forall dm e, distance_modulus w x t None a = Ok (dm, e) -> abs_mag w m x t a = Ok (m - dm) /\ app_mag w m x t a = Ok (m + dm) /\
     (forall M, abs_mag w m x t a = Ok M -> app_mag w M x t a = Ok m) /\ (forall M, app_mag w m x t a = Ok M -> abs_mag w M x t a = Ok m)) /\
  (forall ex, distance_modulus w x t None a = Raise ex <-> abs_mag w m x t a = Raise ex) /\ (forall ex, distance_modulus w x t None a = Raise ex <-> app_mag w m x t a = Raise ex).
Proof.
  intros w m x t a. unfold abs_mag, app_mag. destruct (distance_modulus w x t None a) as [(d, e)|ex|]; cbn [bindr fst].
  - split; [|split; split; discriminate]. intros dm e' E. assert (dm = d) as -> by congruence. split; [reflexivity|]. split; [reflexivity|]. split; intros M E'; match type of E' with Ok ?u = Ok ?v => assert (v = u) as -> by congruence end; f_equal; ring.
  - split; [discriminate|]. split; intros ex'; split; congruence.
  - split; [discriminate|]. split; intros ex'; split; discriminate.
Qed.
Print Assumptions C44_magnitudes.
(** With the default autocosmo the answer is that of the cosmological calculation for every distance or redshift that is not 0: the modulus of the luminosity
    distance at the (Hubble law) redshift. *)
Theorem C44_cosmological : forall w x t, physical w -> 0 < x -> t <> IOther ->
  let z := match t with IDistance => x / 10 ^ 6 * Hub w / ckm | _ => x end in
  0 < z /\ distance_modulus w x t None ATrue = Ok (D w 4 z, None) /\ 0 < D w 1 z /\ distance_from_modulus (D w 4 z) None = (D w 1 z * 10 ^ 6, None).
Proof.
  intros w x t P Hx Ht z. pose proof ckm_pos as C. destruct P as (HH & P).
  assert (0 < 10 ^ 6) as T6 by (apply pow_lt; lra).
  assert (0 < z) as Pz. { unfold z. destruct t; [|exact Hx|contradiction]. apply Rdiv_lt_0_compat; [|exact C]. apply Rmult_lt_0_compat; [apply Rdiv_lt_0_compat; auto|auto]. }
  assert (0 < D w 1 z) as Dp. { rewrite <- (D_0 w 1) by auto. apply D_incr; auto; [split; auto|lra]. }
  split; [auto|]. split; [|split; [auto|]].
  - assert (forall X, (let cosmo := if Req_EM_T z 0 then false else true in if cosmo then zdist_full w false 4 None false None z else X) = Ok (D w 4 z, None)) as K.
    { intros X. destruct (Req_EM_T z 0) as [Z|_]; [lra|]. unfold zdist_full. cbn [bindr zdist D]. do 2 f_equal. unfold D. cbn [zdist]. ring. }
    unfold distance_modulus. destruct t; [exact (K _)|exact (K _)|contradiction].
  - rewrite D4. unfold distance_from_modulus. fold (log10 (D w 1 z * 10 ^ 6)). replace (1 + (5 * log10 (D w 1 z * 10 ^ 6) - 5) / 5) with (log10 (D w 1 z * 10 ^ 6)) by field. rewrite pow_log10; [reflexivity|]. apply Rmult_lt_0_compat; auto.
Qed.
Print Assumptions C44_cosmological.
(** ... which is not, as documented, only done for z > 0.1: in a universe with only a cosmological constant every distance, however small, gets a modulus too large by 5 log10(1+z) . *)
Theorem C44_default_refuted : forall h x, 0 < h -> 0 < x -> let w := FRW h 0 0 1 in let z := x / 10 ^ 6 * h / ckm in
  exists dm m, distance_modulus w x IDistance None ATrue = Ok (dm, None) /\ distance_modulus w x IDistance None AFalse = Ok (m, None) /\ dm = m + 5 * log10 (1 + z) /\ m < dm /\ fst (distance_from_modulus dm None) = x * (1 + z).
Proof.
  intros h x Hh Hx w z. assert (physical w) as P by (apply physical_intro; lra). destruct (C44_cosmological w x IDistance P Hx ltac:(discriminate)) as (Pz & E & Dp & F). cbn [Hub w] in *. fold z in Pz, E, Dp, F.
  assert (0 < 10 ^ 6) as T6 by (apply pow_lt; lra). pose proof ckm_pos as C.
  assert (D w 1 z = D w 0 z * (1 + z)) as R1. { rewrite D1, D0. field. lra. }
  assert (D w 0 z = x / 10 ^ 6) as R0. { destruct (C42_closed_forms h z Hh ltac:(lra)) as (_ & R0 & _). unfold w. rewrite R0. unfold z. field. repeat split; lra. }
  assert (D w 1 z * 10 ^ 6 = x * (1 + z)) as R2. { rewrite R1, R0. field. }
  exists (D w 4 z), (5 * log10 x - 5). split; [exact E|]. split; [reflexivity|]. assert (D w 4 z = 5 * log10 x - 5 + 5 * log10 (1 + z)) as K. { rewrite D4, R2. fold (log10 (x * (1 + z))). rewrite log10_mult by lra. ring. }
  split; [exact K|]. split; [pose proof (log10_pos (1 + z) ltac:(lra)); lra|]. rewrite F. cbn [fst]. exact R2.
Qed.
Print Assumptions C44_default_refuted.
(** A redshift without the cosmological calculation is turned into Mpc but used as pc: 30 magnitudes too bright. *)
Theorem C44_redshift_refuted : forall w z, 0 < Hub w -> 0 < z -> exists dm m, distance_modulus w z IRedshift None AFalse = Ok (dm, None) /\ distance_modulus w (z * ckm / Hub w * 10 ^ 6) IDistance None AFalse = Ok (m, None) /\ dm = m - 30.
Proof.
  intros w z HH Hz0. eexists; eexists. split; [reflexivity|]. split; [reflexivity|]. rewrite log10_mult, log10_1e6; [ring| |apply pow_lt; lra]. apply Rdiv_lt_0_compat; [apply Rmult_lt_0_compat; [auto|apply ckm_pos]|auto].
Qed.
Print Assumptions C44_redshift_refuted.
(** An error on the input without the cosmological calculation always fails; with an error on the modulus, the modulus itself is returned in place of the distance. *)
Theorem C44_errors_refuted : forall w x dx t, t <> IOther -> distance_modulus w x t (Some dx) AFalse = Raise NameError /\ (forall e, fst (distance_from_modulus x (Some e)) = x).
Proof. intros w x dx [| |] Ht; try contradiction; split; reflexivity. Qed.

(** ** surface brightness.  [L m] is the flux 10^(-0.4 m) of magnitude m. *)
(** The surface brightness of magnitude m over an area is the magnitude whose flux times the area is the flux of m; over the half light disc, the flux is half the total. *)
Theorem C44_surface_brightness : forall m, (forall area, 0 < area -> area * magToFlux (area_to_sb m area) = magToFlux m /\ (forall k, 0 < k -> area_to_sb (m - 5 / 2 * log10 k) (k * area) = area_to_sb m area)) /\
  (forall rh, 0 < rh -> PI * rh ^ 2 * magToFlux (rh_to_sb m rh) = magToFlux m / 2) /\ area_to_sb m 1 = m.
Proof.
  intros m. assert (forall x y, 0 < y -> y * magToFlux (x + 5 / 2 * log10 y) = magToFlux x) as K.
  { intros x y Hy. rewrite magToFlux_plus. replace (5 / 2 * log10 y) with (fluxToMag (/ y)) by (rewrite fluxToMag_inv, fluxToMag_log by auto; ring). rewrite flux_mag by (apply Rinv_0_lt_compat; auto). field. lra. }
  split; [|split].
  - intros area Ha. split; [apply K; auto|]. intros k Hk. unfold area_to_sb. rewrite log10_mult by auto. ring.
  - intros rh Hr. unfold rh_to_sb, area_to_sb. replace (PI * rh ^ 2) with (PI * rh * rh) by ring. rewrite K by (apply Rmult_lt_0_compat; [apply Rmult_lt_0_compat; [apply PI_RGT_0|]|]; auto). rewrite <- (K m 2) by lra. field.
  - unfold area_to_sb. rewrite log10_1. ring.
Qed.
Print Assumptions C44_surface_brightness.
(** The cosmological dimming correction in magnitudes and in fluxes is the same; it is (1+z)^4, the fourth power law composes, z = 0 changes nothing. *)
Theorem C44_dimming : forall S z, -1 < z -> magToFlux (cosmo_sb S z true) = cosmo_sb (magToFlux S) z false /\ cosmo_sb S 0 true = S /\ cosmo_sb S 0 false = S /\
  (forall z', -1 < z' -> cosmo_sb (cosmo_sb S z true) z' true = cosmo_sb S ((1 + z) * (1 + z') - 1) true /\ cosmo_sb (cosmo_sb S z false) z' false = cosmo_sb S ((1 + z) * (1 + z') - 1) false) /\
  (0 < z -> cosmo_sb S z true < S).
Proof.
  intros S z H. split; [|split; [|split; [|split]]]; unfold cosmo_sb.
  - replace (S - 10 * log10 (1 + z)) with (S + fluxToMag ((1 + z) ^ 4)) by (rewrite fluxToMag_log, log10_pown by lra; cbn [INR]; field). rewrite magToFlux_plus, flux_mag by (apply pow_lt; lra). reflexivity.
  - replace (1 + 0) with 1 by ring. rewrite log10_1. ring.
  - ring.
  - intros z' H'. replace (1 + ((1 + z) * (1 + z') - 1)) with ((1 + z) * (1 + z')) by ring. rewrite log10_mult by lra. split; ring.
  - intros Hz0. pose proof (log10_pos (1 + z) ltac:(lra)). lra.
Qed.
Print Assumptions C44_dimming.
(** Intensities and fluxes of spheres: mutually inverse factors, only the ratio of radius and distance counts, inverse square law.  Poisson significance:
    exposure and area are interchangeable, k times the exposure gives sqrt k times the significance, and without background it is the square root of the counts. *)
Theorem C44_intensity : forall r d k, 0 < r -> 0 < d -> 0 < k -> intensity_to_flux r d * flux_to_intensity r d = 1 /\ intensity_to_flux (k * r) (k * d) = intensity_to_flux r d /\
  intensity_to_flux r (k * d) = intensity_to_flux r d / k ^ 2 /\ intensity_to_flux r r = PI.
Proof. intros r d k Hr Hd Hk. pose proof PI_RGT_0. unfold intensity_to_flux, flux_to_intensity. repeat split; field; repeat split; lra. Qed.
Theorem C44_significance : forall s b e a k, 0 < s -> 0 <= b -> 0 < e -> 0 < a -> 0 < k -> intensities_to_sig s b e a = intensities_to_sig s b a e /\ intensities_to_sig s b (k * e) a = sqrt k * intensities_to_sig s b e a /\
  intensities_to_sig s 0 e a = sqrt (e * a * s) /\ (forall b', b < b' -> intensities_to_sig s b' e a < intensities_to_sig s b e a).
Proof.
  intros s b e a k Hs Hb He Ha Hk. unfold intensities_to_sig. assert (0 < e * a) as Pe by (apply Rmult_lt_0_compat; auto). assert (forall t, 0 <= t -> 0 < e * a * (s + t)) as Pt by (intros; apply Rmult_lt_0_compat; lra). split; [|split; [|split]].
  - now rewrite (Rmult_comm a e).
  - replace (k * e * a * (s + b)) with (k * (e * a * (s + b))) by ring. rewrite sqrt_mult by (try lra; left; auto). pose proof (sqrt_lt_R0 _ Hk). pose proof (sqrt_lt_R0 _ (Pt b Hb)). replace (k * e * a * s) with (sqrt k * sqrt k * (e * a * s)) by (rewrite sqrt_sqrt by lra; ring). field. lra.
  - replace (s + 0) with s by ring. assert (0 < e * a * s) as Q by (apply Rmult_lt_0_compat; auto). pose proof (sqrt_lt_R0 _ Q). rewrite <- (sqrt_sqrt (e * a * s)) at 1 by lra. field. lra.
  - intros b' Hb'. apply Rmult_lt_compat_l; [apply Rmult_lt_0_compat; auto|]. apply Rinv_lt_contravar; [apply Rmult_lt_0_compat; apply sqrt_lt_R0; apply Pt; lra|]. apply sqrt_lt_1; [left; apply Pt; lra|left; apply Pt; lra|]. apply Rmult_lt_compat_l; lra.
Qed.
Print Assumptions C44_significance.
Example C44_ex : physical (FRW 72 (5 / 100000) (26 / 100) (739 / 1000)). Proof. apply physical_intro; lra. Qed.
