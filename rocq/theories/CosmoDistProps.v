(** * CosmoDistProps: C41 (FRW densities), C42 (cosmological distances) *)
From Coq Require Import List Reals Lra Lia.
From Coquelicot Require Import Coquelicot.
From Verif Require Import PyBase CosmoDistModel.
Import ListNotations.
Open Scope R_scope.

(** ** C41 *)
(** a universe with H^2 > 0 at redshift z, written out: H^2/H0^2 = R(1+z)^4 + M(1+z)^3 + L + K(1+z)^2 *)
Definition E2 (w : frw) (z : R) : R := omegaR w * (1 + z) ^ 4 + omegaM w * (1 + z) ^ 3 + omegaL w + (1 - omegaR w - omegaM w - omegaL w) * (1 + z) ^ 2.
Lemma inv_pow z n : -1 < z -> / (1 / (1 + z)) ^ n = (1 + z) ^ n.
Proof. intros H. unfold Rdiv. rewrite Rmult_1_l, pow_inv, Rinv_inv. reflexivity. Qed.
Lemma Hz_E2 w z : -1 < z -> Hz w z = Hub w * sqrt (E2 w z).
Proof. intros H. unfold Hz. cbv zeta. rewrite !inv_pow by auto. f_equal. f_equal. unfold E2. ring. Qed.
Lemma rhoC_E2 w z : -1 < z -> 0 <= E2 w z -> rhoC_cgs w z = rhoC_cgs w 0 * E2 w z.
Proof.
  intros H E. unfold rhoC_cgs, rhoC. cbv zeta. rewrite !Hz_E2 by lra. replace (E2 w 0) with 1 by (unfold E2; ring). rewrite sqrt_1.
  set (k := 10 ^ 5 * / 10 ^ 6 * pcpercm). replace (3 * (Hub w * sqrt (E2 w z) * 10 ^ 5 * / 10 ^ 6 * pcpercm) * (Hub w * sqrt (E2 w z) * 10 ^ 5 * / 10 ^ 6 * pcpercm)) with (3 * (Hub w * k) * (Hub w * k) * (sqrt (E2 w z) * sqrt (E2 w z))) by (unfold k; ring).
  rewrite sqrt_sqrt by auto. unfold k, Rdiv. ring.
Qed.
Lemma pcpercm_pos : 0 < pcpercm. Proof. unfold pcpercm. apply Rdiv_lt_0_compat; [lra|]. apply Rmult_lt_0_compat; [lra|]. apply pow_lt. lra. Qed.
Lemma G_pos : 0 < G_cgs. Proof. unfold G_cgs. lra. Qed.
Lemma rhoC0_pos w : 0 < Hub w -> 0 < rhoC_cgs w 0.
Proof.
  intros H. unfold rhoC_cgs, rhoC. cbv zeta. rewrite Hz_E2 by lra. replace (E2 w 0) with 1 by (unfold E2; ring). rewrite sqrt_1. pose proof pcpercm_pos as P. pose proof G_pos as Q. pose proof PI_RGT_0 as PP.
  assert (0 < Hub w * 1 * 10 ^ 5 * / 10 ^ 6 * pcpercm) as A. { repeat apply Rmult_lt_0_compat; try lra. }
  apply Rdiv_lt_0_compat; [apply Rmult_lt_0_compat; [|auto]; apply Rmult_lt_0_compat; lra|]. apply Rmult_lt_0_compat; [lra|auto].
Qed.

(** H(0)=H0; H follows the Friedmann equation; the critical density goes as H^2, is 3H^2/8 pi G; in both unit systems the same ratio;
    the density parameters at any redshift add up to 1, and are the present ones at z=0, and each is its energy density over the critical density. *)
Theorem C41_densities : forall w z, 0 < Hub w -> -1 < z -> 0 < E2 w z ->
  Hz w 0 = Hub w /\ Hz w z ^ 2 = Hub w ^ 2 * E2 w z /\ 0 < Hz w z /\
  rhoC_cgs w z / rhoC_cgs w 0 = (Hz w z / Hz w 0) ^ 2 /\ 0 < rhoC_cgs w z /\
  omegaRz w z + omegaMz w z + omegaLz w z + omegaKz w z = 1 /\
  omegaRz w z * rhoC_cgs w z = omegaR w * rhoC_cgs w 0 * (1 + z) ^ 4 /\ omegaMz w z * rhoC_cgs w z = omegaM w * rhoC_cgs w 0 * (1 + z) ^ 3 /\
  omegaLz w z * rhoC_cgs w z = omegaL w * rhoC_cgs w 0 /\ omegaRz w 0 = omegaR w /\ omegaMz w 0 = omegaM w /\ omegaLz w 0 = omegaL w.
Proof.
  intros w z HH Hz1 HE. pose proof (rhoC0_pos w HH) as R0. pose proof (rhoC_E2 w z Hz1 (Rlt_le _ _ HE)) as RZ. assert (E2 w 0 = 1) as E0 by (unfold E2; ring).
  assert (Hz w 0 = Hub w) as A by (rewrite Hz_E2 by lra; rewrite E0, sqrt_1; ring).
  assert (Hz w z ^ 2 = Hub w ^ 2 * E2 w z) as B. { rewrite Hz_E2 by auto. replace ((Hub w * sqrt (E2 w z)) ^ 2) with (Hub w ^ 2 * (sqrt (E2 w z) * sqrt (E2 w z))) by ring. rewrite sqrt_sqrt by lra. ring. }
  assert (0 < rhoC_cgs w z) as RP by (rewrite RZ; apply Rmult_lt_0_compat; auto).
  split; [auto|]. split; [auto|]. split; [rewrite Hz_E2 by auto; apply Rmult_lt_0_compat; [auto|apply sqrt_lt_R0; auto]|]. split.
  { rewrite A, RZ. unfold Rdiv. rewrite Rpow_mult_distr, B. field. split; lra. }
  split; [auto|]. unfold omegaRz, omegaMz, omegaLz, omegaKz. cbv zeta. rewrite !inv_pow by lra. split.
  { rewrite RZ. unfold omegaK, E2 in *. field. split; [|lra]. lra. }
  split; [field; lra|]. split; [field; lra|]. split; [field; lra|]. replace (1 + 0) with 1 by ring. rewrite !pow1. repeat split; field; lra.
Qed.
Print Assumptions C41_densities.
Theorem C41_units : forall w z r, rhoC w z Cgs = Ok r -> rhoC w z Cosmological = Ok (r / Ms * (10 ^ 6 * (308568025 * 10 ^ 10)) ^ 3) /\ rhoC w z OtherUnits = Raise ValueError /\
  r = 3 * (Hz w z * 10 ^ 5 / (10 ^ 6 * (308568025 * 10 ^ 10))) ^ 2 / (8 * PI * G_cgs).
Proof.
  intros w z r E. unfold rhoC in *. cbv zeta in *. match type of E with Ok ?x = Ok ?y => assert (y = x) as -> by congruence end. clear E. assert (10 ^ 6 <> 0) as T0 by (apply pow_nonzero; lra). assert (308568025 * 10 ^ 10 <> 0) as U0 by (apply Rmult_integral_contrapositive; split; [lra|apply pow_nonzero; lra]).
  split; [|split; [reflexivity|]].
  - apply (f_equal Ok), (f_equal (Rmult _)). unfold pcpercm. set (u := 308568025 * 10 ^ 10) in *. set (t := 10 ^ 6) in *. clearbody u t. field. auto.
  - unfold pcpercm. set (u := 308568025 * 10 ^ 10) in *. set (t := 10 ^ 6) in *. clearbody u t. pose proof PI_RGT_0 as PP. pose proof G_pos as GP. field. repeat split; lra.
Qed.
Print Assumptions C41_units.

(** rho is the mean density (sum of the components) in a flat universe, and at z=0 in any. *)
Theorem C41_rho : forall w z, 0 < Hub w -> -1 < z -> 0 < E2 w z -> omegaK w = 0 \/ z = 0 ->
  rho w z Cgs = Ok ((omegaRz w z + omegaMz w z + omegaLz w z) * rhoC_cgs w z).
Proof.
  intros w z HH Hz1 HE K. destruct (C41_densities w z HH Hz1 HE) as (_ & _ & _ & _ & RP & S & A & B & C & D1 & D2 & D3). unfold rho. change (rhoC w z Cgs) with (Ok (rhoC_cgs w z)). f_equal. destruct K as [K| ->].
  - assert (omegaKz w z = 0) as Kz by (unfold omegaKz; rewrite K; unfold Rdiv; ring). replace (omegaRz w z + omegaMz w z + omegaLz w z) with 1 by lra. unfold omegaK in K. replace (omega w) with 1 by (unfold omega; lra). reflexivity.
  - now rewrite D1, D2, D3.
Qed.
Print Assumptions C41_rho.
(** In a curved universe it is not: it uses today's omega with the critical density at z. *)
Theorem C41_rho_refuted : exists w z, 0 < Hub w /\ 0 < z /\ 0 < E2 w z /\ exists r, rho w z Cgs = Ok r /\ r <> (omegaRz w z + omegaMz w z + omegaLz w z) * rhoC_cgs w z.
Proof.
  set (w := FRW 70 0 (3/10) 0). exists w, 1. assert (0 < E2 w 1) as HE by (unfold E2, w; cbn [omegaR omegaM omegaL]; lra). split; [cbn; lra|]. split; [lra|]. split; [auto|]. exists (omega w * rhoC_cgs w 1). split; [reflexivity|].
  assert (0 < Hub w) as HH by (cbn; lra). destruct (C41_densities w 1 HH ltac:(lra) HE) as (_ & _ & _ & _ & RP & S & A & B & C & _). intros Q. apply Rmult_eq_reg_r in Q; [|lra].
  pose proof (rhoC_E2 w 1 ltac:(lra) (Rlt_le _ _ HE)) as RZ. pose proof (rhoC0_pos w HH) as R0. rewrite RZ in A, B, C. set (x := rhoC_cgs w 0) in *. clearbody x. unfold omega in Q. unfold E2 in A, B, C, HE. cbn [omegaR omegaM omegaL w] in *.
  assert (omegaRz w 1 = 0) by nra. assert (omegaLz w 1 = 0) by nra. nra.
Qed.
Print Assumptions C41_rho_refuted.
(** deltavir: 18 pi^2 when matter is critical; refuses a cosmological constant in a curved universe, and answers all others. *)
Theorem C41_deltavir : forall w z,
  (omegaMz w z = 1 -> omegaK w = 0 \/ omegaL w = 0 -> deltavir w z = Ok (18 * PI ^ 2)) /\
  (deltavir w z = Raise NotImplementedError <-> omegaK w <> 0 /\ omegaL w <> 0) /\
  (omegaK w = 0 -> deltavir w z = Ok (18 * PI ^ 2 + 82 * (omegaMz w z - 1) - 39 * (omegaMz w z - 1) ^ 2)) /\
  (omegaK w <> 0 -> omegaL w = 0 -> deltavir w z = Ok (18 * PI ^ 2 + 60 * (omegaMz w z - 1) - 32 * (omegaMz w z - 1) ^ 2)).
Proof.
  intros w z. unfold deltavir. cbv zeta. destruct (Req_EM_T (omegaK w) 0) as [K|K], (Req_EM_T (omegaL w) 0) as [L|L]; (split; [intros M H; try (f_equal; rewrite M; ring); exfalso; tauto|]); repeat split; intros; try discriminate; try tauto; congruence.
Qed.
Print Assumptions C41_deltavir.
(** In a flat matter universe that is every redshift. *)
Theorem C41_eds : forall h z, 0 < h -> -1 < z -> let w := FRW h 0 1 0 in Hz w z = h * sqrt ((1 + z) ^ 3) /\ omegaMz w z = 1 /\ deltavir w z = Ok (18 * PI ^ 2).
Proof.
  intros h z Hh H w. assert (E2 w z = (1 + z) ^ 3) as E by (unfold E2, w; cbn [omegaR omegaM omegaL]; ring). assert (0 < (1 + z) ^ 3) by (apply pow_lt; lra). assert (omegaMz w z = 1) as M.
  { assert (0 < Hub w) as HH by auto. destruct (C41_densities w z HH H ltac:(lra)) as (_ & _ & _ & _ & RP & S & A & B & C & _). pose proof (rhoC_E2 w z H ltac:(lra)) as RZ. pose proof (rhoC0_pos w HH). rewrite RZ, E in B. cbn [omegaM w] in B. apply Rmult_eq_reg_r with (rhoC_cgs w 0 * (1 + z) ^ 3); [lra|]. apply Rgt_not_eq, Rmult_lt_0_compat; auto. }
  split; [rewrite Hz_E2, E by auto; reflexivity|]. split; [auto|]. apply C41_deltavir; [auto|]. right. reflexivity.
Qed.
Print Assumptions C41_eds.
(** cosmo_z_to_H gives H(z) and the differences to z+dz and to z-dz: the lower error is negative, unlike cosmo_z_to_dist's. *)
Theorem C41_z_to_H : forall w z e, cosmo_z_to_H w z e = (Hz w z, Hz w (z + e) - Hz w z, Hz w (z - e) - Hz w z) /\
  (0 < Hub w -> 0 <= omegaR w -> 0 <= omegaM w -> 0 <= omegaK w -> 0 <= omegaL w -> 0 < omegaR w + omegaM w + omegaK w -> 0 < e -> -1 < z - e -> 0 < snd (fst (cosmo_z_to_H w z e)) /\ snd (cosmo_z_to_H w z e) < 0).
Proof.
  intros w z e. split; [reflexivity|]. intros HH HR HM HK HL HP He Hz1. cbn [cosmo_z_to_H fst snd].
  assert (forall x y, -1 < x -> x < y -> Hz w x < Hz w y) as Mono.
  { intros x y Hx Hxy. rewrite !Hz_E2 by lra. apply Rmult_lt_compat_l; [auto|]. unfold omegaK in *. assert (0 < 1 + x) as P by lra. assert (1 + x < 1 + y) as Q by lra. unfold E2. set (a := 1 + x) in *. set (b := 1 + y) in *. clearbody a b.
    assert (a ^ 2 < b ^ 2) as P2 by nra. assert (a ^ 3 < b ^ 3) as P3 by (replace (a ^ 3) with (a ^ 2 * a) by ring; replace (b ^ 3) with (b ^ 2 * b) by ring; apply Rmult_le_0_lt_compat; nra). assert (a ^ 4 < b ^ 4) as P4 by (replace (a ^ 4) with (a ^ 2 * a ^ 2) by ring; replace (b ^ 4) with (b ^ 2 * b ^ 2) by ring; apply Rmult_le_0_lt_compat; nra).
    assert (forall k s t, 0 <= k -> s < t -> k * s <= k * t) as L1 by (intros; apply Rmult_le_compat_l; lra). assert (forall k s t, 0 < k -> s < t -> k * s < k * t) as L2 by (intros; apply Rmult_lt_compat_l; lra).
    apply sqrt_lt_1_alt. set (K := 1 - omegaR w - omegaM w - omegaL w) in *. split.
    - assert (0 <= a ^ 2) by nra. assert (0 <= a ^ 3) by (apply pow_le; lra). assert (0 <= a ^ 4) by (apply pow_le; lra). repeat apply Rplus_le_le_0_compat; try apply Rmult_le_pos; auto.
    - pose proof (L1 _ _ _ HR P4). pose proof (L1 _ _ _ HM P3). pose proof (L1 _ _ _ HK P2). destruct HR as [HR|HR]; [pose proof (L2 _ _ _ HR P4); lra|]. destruct HM as [HM|HM]; [pose proof (L2 _ _ _ HM P3); lra|]. destruct HK as [HK|HK]; [pose proof (L2 _ _ _ HK P2); lra|]. lra. }
  pose proof (Mono z (z + e) ltac:(lra) ltac:(lra)). pose proof (Mono (z - e) z ltac:(lra) ltac:(lra)). lra.
Qed.
Print Assumptions C41_z_to_H.
(** The flux conversions are inverse to each other, agree for lambda*nu = c, and conserve lambda*f_lambda = nu*f_nu. *)
Theorem C41_flux : forall f l n, l <> 0 -> n <> 0 -> l * n = c_cgs ->
  fnu_to_flambda_l (flambda_to_fnu_l f l) l = f /\ flambda_to_fnu_l (fnu_to_flambda_l f l) l = f /\ fnu_to_flambda_n (flambda_to_fnu_n f n) n = f /\ flambda_to_fnu_n (fnu_to_flambda_n f n) n = f /\
  flambda_to_fnu_l f l = flambda_to_fnu_n f n /\ fnu_to_flambda_l f l = fnu_to_flambda_n f n /\ n * flambda_to_fnu_l f l = l * f.
Proof.
  intros f l n Hl Hn E. assert (c_cgs <> 0) by (unfold c_cgs; lra). unfold fnu_to_flambda_l, flambda_to_fnu_l, fnu_to_flambda_n, flambda_to_fnu_n. rewrite <- E in *. repeat split; field; auto.
Qed.
Print Assumptions C41_flux.
Example C41_ex : let w := FRW 72 0 (3/10) (7/10) in 0 < Hub w /\ 0 < E2 w 3 /\ omegaK w = 0. Proof. unfold E2, omegaK. cbn [Hub omegaR omegaM omegaL]. lra. Qed.
