(** * PhotProps: C43 (magnitudes, luminosities), C44 (distance moduli, surface brightness) *)
From Coq Require Import List Bool Reals Lra Lia String.
From Coquelicot Require Import Coquelicot.
From Verif Require Import PyBase CosmoDistModel CosmoDistProps CosmoDistInt PhotModel.
Import ListNotations.
Open Scope R_scope.

(** ** C43 *)
Lemma ln10_pos : 0 < ln 10. Proof. rewrite <- ln_1. apply ln_increasing; lra. Qed.
Lemma pa_neg : pa < 0. Proof. unfold pa. pose proof ln10_pos. assert (0 < 5 / 2 / ln 10) by (apply Rdiv_lt_0_compat; lra). unfold Rdiv in *. lra. Qed.
Lemma flux_pos m : 0 < magToFlux m. Proof. apply exp_pos. Qed.
Lemma mag_flux m : fluxToMag (magToFlux m) = m. Proof. unfold fluxToMag, magToFlux. rewrite ln_exp. pose proof pa_neg. field. lra. Qed.
Lemma flux_mag f : 0 < f -> magToFlux (fluxToMag f) = f. Proof. intros H. unfold fluxToMag, magToFlux. pose proof pa_neg. replace (pa * ln f / pa) with (ln f) by (field; lra). now apply exp_ln. Qed.
Lemma magToFlux_pow m : magToFlux m = Rpower 10 (- m / (5 / 2)).
Proof. unfold magToFlux, Rpower, pa. f_equal. pose proof ln10_pos. field. lra. Qed.
Lemma fluxToMag_log f : fluxToMag f = - (5 / 2) * log10 f. Proof. unfold fluxToMag, pa, log10. unfold Rdiv. ring. Qed.
Lemma magToFlux_plus a b : magToFlux (a + b) = magToFlux a * magToFlux b.
Proof. unfold magToFlux. rewrite <- exp_plus. f_equal. unfold Rdiv. ring. Qed.
Lemma fluxToMag_mult a b : 0 < a -> 0 < b -> fluxToMag (a * b) = fluxToMag a + fluxToMag b.
Proof. intros. unfold fluxToMag. rewrite ln_mult by auto. ring. Qed.
Lemma fluxToMag_inv a : 0 < a -> fluxToMag (/ a) = - fluxToMag a. Proof. intros. unfold fluxToMag. rewrite ln_Rinv by auto. ring. Qed.
Lemma Rpower_10_2 : Rpower 10 2 = 100. Proof. replace 2 with (INR 2) by (cbn; lra). rewrite Rpower_pow by lra. cbn. lra. Qed.
Lemma flux5 : magToFlux 5 = / 100.
Proof. rewrite magToFlux_pow. assert (Ropp 5 / (5 / 2) = Ropp 2) as E by lra. rewrite E. rewrite (Rpower_Ropp 10 2), Rpower_10_2. reflexivity. Qed.

(** Pogson magnitudes: m = -2.5 log10 f; the conversions are inverse, fainter is larger, five magnitudes are a factor 100, and the errors
    are propagated by the absolute value of the derivative, so they are inverse too. *)
Theorem C43_pogson : forall m, fluxToMag (magToFlux m) = m /\ (forall f, 0 < f -> magToFlux (fluxToMag f) = f) /\ (forall f, fluxToMag f = - (5 / 2) * (ln f / ln 10)) /\
  magToFlux (m + 5) = magToFlux m / 100 /\ (forall m', m < m' -> magToFlux m' < magToFlux m) /\
  (exists D, is_derive magToFlux m D /\ forall e, magerrToFluxerr e m = e * Rabs D) /\
  (forall f, 0 < f -> exists D, is_derive fluxToMag f D /\ forall e, fluxerrToMagerr e f = e * Rabs D) /\
  (forall e, fluxerrToMagerr (magerrToFluxerr e m) (magToFlux m) = e) /\ (forall e f, 0 < f -> magerrToFluxerr (fluxerrToMagerr e f) (fluxToMag f) = e).
Proof.
  intros m. pose proof pa_neg as N. pose proof (flux_pos m) as P. split; [apply mag_flux|]. split; [apply flux_mag|]. split; [intros f; rewrite fluxToMag_log; reflexivity|]. split.
  { rewrite magToFlux_plus, flux5. reflexivity. }
  split. { intros m' H. unfold magToFlux. apply exp_increasing. unfold Rdiv. assert (/ pa < 0) by (apply Rinv_lt_0_compat; auto). nra. }
  split. { exists (magToFlux m / pa). split; [unfold magToFlux; auto_derive; [lra|unfold Rdiv; ring]|]. intros e. unfold magerrToFluxerr. rewrite Rabs_left; [unfold Rdiv; ring|]. assert (/ pa < 0) by (apply Rinv_lt_0_compat; auto). unfold Rdiv. nra. }
  split. { intros f Hf. exists (pa / f). split; [unfold fluxToMag; auto_derive; [lra|field; lra]|]. intros e. unfold fluxerrToMagerr. rewrite Rabs_left; [unfold Rdiv; ring|]. assert (0 < / f) by (apply Rinv_0_lt_compat; auto). unfold Rdiv. nra. }
  unfold fluxerrToMagerr, magerrToFluxerr. split; [intros e; field; split; lra|]. intros e f Hf. rewrite flux_mag by auto. field. split; lra.
Qed.
Print Assumptions C43_pogson.
(** 'asinh' cannot be chosen; the old system stays in force. *)
Theorem C43_asinh_refuted : forall s, choose_magnitude_system s (SysName "asinh") = (s, Raise NameError). Proof. reflexivity. Qed.
(** Luminosities: inverse of each other with their errors, for any zero point (number or known band) and any positive unit; an object with the zero point
    magnitude has one unit; brighter is more; an unknown band raises KeyError. *)
Theorem C43_luminosity : forall M Mz Lz, 0 < Lz ->
  (zval Mz = Raise KeyError -> forall e, mag_to_lum M Mz Lz e = Raise KeyError /\ lum_to_mag M Mz Lz e = Raise KeyError) /\
  (forall z, zval Mz = Ok z -> exists L, mag_to_lum M Mz Lz None = Ok (L, None) /\ 0 < L /\ lum_to_mag L Mz Lz None = Ok (M, None) /\ (M = z -> L = Lz) /\ (M = z - 5 -> L = 100 * Lz) /\
     (forall L', 0 < L' -> exists M', lum_to_mag L' Mz Lz None = Ok (M', None) /\ mag_to_lum M' Mz Lz None = Ok (L', None)) /\
     (forall e, e <> 0 -> exists dL, mag_to_lum M Mz Lz (Some e) = Ok (L, Some dL) /\ lum_to_mag L Mz Lz (Some dL) = Ok (M, Some e) /\ (0 < e -> 0 < dL))).
Proof.
  intros M Mz Lz HL. split; [intros E e; unfold mag_to_lum, lum_to_mag; rewrite E; split; reflexivity|]. intros z E. unfold mag_to_lum, lum_to_mag. rewrite E. cbn [bindr any_err]. exists (magToFlux (M - z) * Lz). pose proof (flux_pos (M - z)) as P.
  assert (magToFlux (M - z) * Lz / Lz = magToFlux (M - z)) as D by (field; lra). pose proof pa_neg as N.
  split; [reflexivity|]. split; [apply Rmult_lt_0_compat; auto|]. split; [rewrite D, mag_flux; do 2 f_equal; ring|]. split.
  { intros ->. replace (z - z) with 0 by ring. unfold magToFlux. replace (0 / pa) with 0 by (field; lra). rewrite exp_0. ring. } split.
  { intros ->. replace (z - 5 - z) with (- (5)) by ring. rewrite magToFlux_pow. replace (- - (5) / (5 / 2)) with 2 by field. rewrite Rpower_10_2. reflexivity. } split.
  { intros L' HL'. exists (z + fluxToMag (L' / Lz)). split; [reflexivity|]. replace (z + fluxToMag (L' / Lz) - z) with (fluxToMag (L' / Lz)) by ring. rewrite flux_mag by (apply Rdiv_lt_0_compat; auto). do 2 f_equal. field. lra. }
  intros e He. cbn [any_err]. destruct (Req_EM_T e 0) as [|_]; [contradiction|]. exists (magerrToFluxerr e (M - z) * Lz). split; [reflexivity|]. destruct (Req_EM_T _ 0) as [Z|_].
  - exfalso. unfold magerrToFluxerr in Z. apply Rmult_integral in Z. destruct Z as [Z|Z]; [|lra]. unfold Rdiv in Z. apply Rmult_integral in Z. destruct Z as [Z|Z]; [nra|]. assert (/ pa < 0) by (apply Rinv_lt_0_compat; auto). lra.
  - rewrite D, mag_flux. split.
    + do 3 f_equal; [ring|]. replace (magerrToFluxerr e (M - z) * Lz / Lz) with (magerrToFluxerr e (M - z)) by (field; lra). unfold fluxerrToMagerr, magerrToFluxerr. field. split; lra.
    + intros Pe. unfold magerrToFluxerr. apply Rmult_lt_0_compat; [|auto]. assert (/ pa < 0) by (apply Rinv_lt_0_compat; auto). unfold Rdiv. assert (0 < e * magToFlux (M - z)) by (apply Rmult_lt_0_compat; auto). nra.
Qed.
Print Assumptions C43_luminosity.
(** Dictionaries: the same, band by band, keys kept; one unknown band makes the whole call fail. *)
Theorem C43_dictionary : forall d Lz, 0 < Lz ->
  ((exists b x, In (b, x) d /\ band_to_msun b = None) -> mag_to_lum_dict d Lz = Raise TypeError /\ lum_to_mag_dict d Lz = Raise TypeError) /\
  ((forall b x, In (b, x) d -> band_to_msun b <> None) -> exists d', mag_to_lum_dict d Lz = Ok d' /\ lum_to_mag_dict d' Lz = Ok d /\
     List.length d' = List.length d /\ forall i b M, nth_error d i = Some (b, M) -> exists L, nth_error d' i = Some (b, L) /\ mag_to_lum M (ZBand b) Lz None = Ok (L, None)).
Proof.
  intros d Lz HL. split.
  - intros (b & x & Hin & Hb). unfold mag_to_lum_dict, lum_to_mag_dict. assert (forall f, dict_map f d = Raise TypeError) as K; [|split; apply K]. intros f. induction d as [|(b', x') d IH]; [contradiction|]. cbn [dict_map]. destruct Hin as [E|Hin]; [injection E as -> ->; now rewrite Hb|]. destruct (band_to_msun b'); [|reflexivity]. now rewrite IH.
  - intros Hb. unfold mag_to_lum_dict, lum_to_mag_dict. induction d as [|(b, x) d IH]; [exists []; repeat split; auto; intros [|i] b M E; discriminate|]. destruct IH as (d' & A & B & C & E); [intros; eapply Hb; right; eauto|]. cbn [dict_map]. destruct (band_to_msun b) as [z|] eqn:Z; [|elim (Hb b x); [left; auto|auto]].
    rewrite A. cbn [bindr]. eexists. split; [reflexivity|]. cbn [dict_map]. rewrite Z, B. cbn [bindr]. split; [|split; [cbn; congruence|]].
    + do 3 f_equal. replace (magToFlux (x - z) * Lz / Lz) with (magToFlux (x - z)) by (field; lra). rewrite mag_flux. ring.
    + intros [|i] b' M Q; cbn [nth_error] in *; [injection Q as <- <-|auto]. eexists. split; [reflexivity|]. unfold mag_to_lum. cbn [zval]. rewrite Z. reflexivity.
Qed.
Print Assumptions C43_dictionary.
Theorem C43_color : forall c b1 b2, band_to_msun b1 <> None -> band_to_msun b2 <> None ->
  (exists r, color_to_flux_ratio c b1 b2 = Ok r /\ 0 < r /\ flux_ratio_to_color r b1 b2 = Ok c) /\
  (forall r, 0 < r -> exists c', flux_ratio_to_color r b1 b2 = Ok c' /\ color_to_flux_ratio c' b1 b2 = Ok r).
Proof.
  intros c b1 b2 H1 H2. unfold color_to_flux_ratio, flux_ratio_to_color, mag_to_lum, lum_to_mag. cbn [zval any_err]. destruct (band_to_msun b1) as [z1|]; [|congruence]. destruct (band_to_msun b2) as [z2|]; [|congruence]. cbn [bindr fst].
  assert (fluxToMag (1 / 1) = 0) as F1 by (unfold fluxToMag; replace (1 / 1) with 1 by field; rewrite ln_1; ring). split.
  - pose proof (flux_pos (c - z1)). pose proof (flux_pos (0 - z2)). eexists. split; [reflexivity|]. split; [apply Rdiv_lt_0_compat; lra|]. rewrite F1. f_equal. replace (magToFlux (c - z1) * 1 / (magToFlux (0 - z2) * 1) / 1) with (magToFlux (c - z1) * / magToFlux (0 - z2)) by (field; lra). rewrite fluxToMag_mult, fluxToMag_inv, !mag_flux by (auto; apply Rinv_0_lt_compat; auto). ring.
  - intros r Hr. eexists. split; [reflexivity|]. f_equal. rewrite F1. replace (r / 1) with r by field. replace (z1 + fluxToMag r - (z2 + 0) - z1) with (fluxToMag r + (0 - z2)) by ring. rewrite magToFlux_plus, flux_mag by auto. pose proof (flux_pos (0 - z2)). field. lra.
Qed.
Print Assumptions C43_color.
(** Zero points: the spectrum that defines the zero point has magnitude 0; scaling the zero point by s adds 2.5 log10 s to every magnitude; a source
    brighter by a factor k is 2.5 log10 k magnitudes brighter. *)
Theorem C43_zeropoint : forall f z s k, 0 < f -> 0 < z -> 0 < s -> 0 < k ->
  computeMag (computeZpt f) f = 0 /\ computeMag (scaleZpt z s) f = computeMag z f + 5 / 2 * log10 s /\ computeMag z (k * f) = computeMag z f - 5 / 2 * log10 k.
Proof.
  intros f z s k Hf Hz0 Hs Hk. unfold computeMag, computeZpt, scaleZpt. assert (forall x, 0 < x -> 0 < / x) as I0 by (intros; apply Rinv_0_lt_compat; auto). split; [replace (f / f) with 1 by (field; lra); unfold fluxToMag; rewrite ln_1; ring|]. split.
  - replace (f / (z * s)) with (f / z * / s) by (field; lra). rewrite fluxToMag_mult, fluxToMag_inv by (auto; apply Rdiv_lt_0_compat; auto). rewrite (fluxToMag_log s). ring.
  - replace (k * f / z) with (f / z * k) by (field; lra). rewrite fluxToMag_mult by (auto; apply Rdiv_lt_0_compat; auto). rewrite (fluxToMag_log k). ring.
Qed.
Print Assumptions C43_zeropoint.
(** Observations in magnitudes: what was set is read back; fluxes are zptflux*10^(-0.4 m), flux errors follow; wrong lengths are rejected. *)
Lemma map2_nth {A B C} (f : A -> B -> C) a b i x y : nth_error a i = Some x -> nth_error b i = Some y -> nth_error (map2 f a b) i = Some (f x y).
Proof. unfold map2. revert b i. induction a as [|a0 a IH]; intros [|b0 b] [|i] E1 E2; cbn in *; try discriminate; [congruence|auto]. Qed.
Theorem C43_observation : forall o v e zpts, List.length v = nb o -> List.length e = nb o -> List.length zpts = nb o ->
  exists o', setmag o v = (o', Ok tt) /\ exists o'', setmagerr o' e = (o'', Ok tt) /\ getmag o'' = Ok v /\ getmagerr o'' = e /\
    forall i m s z, nth_error v i = Some m -> nth_error e i = Some s -> nth_error zpts i = Some z ->
      nth_error (getflux zpts o'') i = Some (z * Rpower 10 (- m / (5 / 2))) /\ nth_error (getfluxerr zpts o'') i = Some (s * (z * Rpower 10 (- m / (5 / 2)) * (ln 10 / (5 / 2)))).
Proof.
  intros o v e zpts Hv He Hz0. unfold setmag. rewrite Hv, Nat.eqb_refl. eexists. split; [reflexivity|]. unfold setmagerr. cbn [vals ismags nb]. rewrite He, Hv, Nat.eqb_refl. cbn [negb]. eexists. split; [reflexivity|]. split; [reflexivity|]. split; [reflexivity|].
  intros i m s z Em Es Ez. unfold getflux, getfluxerr. cbn [ismags vals errs]. split; [erewrite map2_nth by eauto; now rewrite magToFlux_pow|].
  assert (nth_error (combine e v) i = Some (s, m)) as Q. { clear -Em Es. revert v i Em Es. induction e as [|a e IH]; intros [|b v] [|i] E1 E2; cbn in *; try discriminate; [congruence|auto]. }
  erewrite map2_nth by eauto. cbn [fst snd]. f_equal. unfold magerrToFluxerr. rewrite magToFlux_pow. unfold pa. pose proof ln10_pos. field. lra.
Qed.
Print Assumptions C43_observation.
Theorem C43_wrong_length : forall o v, List.length v <> nb o -> setmag o v = (o, Raise ValueError) /\ setflux o v = (o, Raise ValueError).
Proof. intros o v H. unfold setmag, setflux. apply Nat.eqb_neq in H. now rewrite H. Qed.
(** Observations given as fluxes have no readable magnitudes, and setting magnitude errors on them fails. *)
Theorem C43_flux_observation_refuted : forall o v, List.length v = nb o -> exists o', setflux o v = (o', Ok tt) /\ getmag o' = Raise NameError /\ setmagerr o' v = (o', Raise NameError).
Proof. intros o v H. unfold setflux. rewrite H, Nat.eqb_refl. eexists. split; [reflexivity|]. split; [reflexivity|]. unfold setmagerr. cbn. now rewrite Nat.eqb_refl. Qed.
(** Setting flux errors on an observation in magnitudes: reading them back gives something else. *)
Theorem C43_fluxerr_refuted : exists o e o', setfluxerr o e = (o', Ok tt) /\ getfluxerr [1] o' <> e.
Proof.
  exists (PObs 1 true [5] []), [1]. eexists. split; [reflexivity|]. unfold getfluxerr, map2. cbn [ismags combine map fst snd errs vals]. intros E. injection E as E. unfold magerrToFluxerr, fluxerrToMagerr in E. rewrite flux5 in E. pose proof pa_neg. replace (1 * (- (- pa * 1 / 5) * / 100 / pa)) with (/ 500) in E by (field; lra). lra.
Qed.
Print Assumptions C43_fluxerr_refuted.
Example C43_ex : zval (ZBand "V") = Ok (483 / 100) /\ band_to_msun "g" <> None. Proof. split; [reflexivity|discriminate]. Qed.
