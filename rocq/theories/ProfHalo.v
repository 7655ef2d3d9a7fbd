(** * ProfHalo: NFW halos (C63) and the virial scalings (C64) *)
From Coq Require Import List Bool Reals Ranalysis5 Lra Lia Psatz.
From Coquelicot Require Import Coquelicot.
From Verif Require Import PyBase SpecModel ProfModel ProfBlackbody ProfMass.
Open Scope R_scope.

Definition mu (x : R) : R := ln (1 + x) - x / (1 + x).
Lemma mass_eq m r : integrateSpherical m 0 r = 4 * PI * rho0 m * rc m ^ 3 * mu (r / rc m).
Proof. destruct m as [p q sv]. apply nfw_mass_eq. Qed.
Lemma mu_derive x : 0 <= x -> is_derive mu x (x / (1 + x) ^ 2).
Proof. intros. unfold mu. auto_derive. { repeat split; lra. } field. lra. Qed.
Lemma mu_pos x : 0 < x -> 0 < mu x < x.
Proof. intros. pose proof (ln_bounds x H). unfold mu. assert (0 < x / (1 + x)) by pos. lra. Qed.
Lemma mu_0 : mu 0 = 0.
Proof. unfold mu. replace (1 + 0) with 1 by ring. rewrite ln_1. lra. Qed.
Lemma mass_pos m r : 0 < rho0 m -> 0 < rc m -> 0 < r -> 0 < integrateSpherical m 0 r.
Proof. intros. pose proof PI_RGT_0. rewrite mass_eq. assert (0 < r / rc m) by pos. pose proof (mu_pos _ H3). pos. Qed.

(** mu x / x^3 decreases *)
Lemma phi_pos x : 0 < x -> x ^ 2 / (1 + x) ^ 2 < 3 * mu x.
Proof.
  intros X. assert ((fun t => 3 * mu t - t ^ 2 / (1 + t) ^ 2) 0 < (fun t => 3 * mu t - t ^ 2 / (1 + t) ^ 2) x).
  { apply (incr_by_derivative (fun t => 3 * mu t - t ^ 2 / (1 + t) ^ 2) (fun t => t * (1 + 3 * t) / (1 + t) ^ 3)); trivial.
    - intros y Y. unfold mu. auto_derive. { repeat split; try lra. apply Rgt_not_eq. pos. } field. lra.
    - intros y Y. pos. }
  cbv beta in H. rewrite mu_0 in H. replace (0 ^ 2 / (1 + 0) ^ 2) with 0 in H by field. lra.
Qed.
Lemma mu3_decr a b : 0 < a < b -> mu b / b ^ 3 < mu a / a ^ 3.
Proof.
  intros [A B]. apply (decr_by_derivative (fun t => mu t / t ^ 3) (fun t => (t ^ 2 / (1 + t) ^ 2 - 3 * mu t) / t ^ 4)); trivial.
  - intros y Y. evar_last. { apply (is_derive_div mu (fun t => t ^ 3)); [apply mu_derive; lra|auto_derive; trivial|]. apply Rgt_not_eq. pos. } simpl. set (k := mu y). field. lra.
  - intros y Y. pose proof (phi_pos y ltac:(lra)). assert (0 < (3 * mu y - y ^ 2 / (1 + y) ^ 2) / y ^ 4) by pos. unfold Rdiv in *. lra.
Qed.
Lemma rhomean_eq m r : 0 < rc m -> 0 < r -> getRhoMean m r = 3 * rho0 m / 10 ^ 9 * (mu (r / rc m) / (r / rc m) ^ 3).
Proof. intros. pose proof PI_RGT_0. unfold getRhoMean. rewrite mass_eq. field. repeat split; lra. Qed.
(** C63: the mean density falls with the radius, so that every virial density defines one virial radius *)
Theorem C63_mean_density_decreases : forall m r1 r2, 0 < rho0 m -> 0 < rc m -> 0 < r1 < r2 -> 0 < getRhoMean m r2 < getRhoMean m r1.
Proof.
  intros m r1 r2 P Q B. rewrite !rhomean_eq by lra. assert (r1 / rc m < r2 / rc m). { unfold Rdiv. apply Rmult_lt_compat_r; [pos|lra]. } assert (0 < r1 / rc m) by pos. pose proof (mu3_decr _ _ (conj H0 H)). pose proof (mu_pos (r2 / rc m) ltac:(lra)).
  assert (0 < 3 * rho0 m / 10 ^ 9) by pos. split; [|apply Rmult_lt_compat_l; trivial]. assert (0 < r2 / rc m) by lra. pos.
Qed.
(** the mean density is the mass over the volume, in Msun/pc^3 for a density given in Msun/kpc^3: it is above the density at the radius *)
Theorem C63_mean_density : forall m r, 0 < rho0 m -> 0 < rc m -> 0 < r ->
  getRhoMean m r = integrateSpherical m 0 r / (4 / 3 * PI * (1000 * r) ^ 3) /\ nfw (rho0 m) (rc m) r < 10 ^ 9 * getRhoMean m r.
Proof.
  intros m r P Q R. pose proof PI_RGT_0. split. { unfold getRhoMean. field. lra. }
  rewrite rhomean_eq by trivial. assert (X : 0 < r / rc m) by pos. pose proof (phi_pos _ X). set (x := r / rc m) in *. unfold nfw. fold x.
  replace (10 ^ 9 * (3 * rho0 m / 10 ^ 9 * (mu x / x ^ 3))) with (rho0 m * (3 * mu x / x ^ 3)) by (field; lra). unfold Rdiv at 1. apply Rmult_lt_compat_l; trivial. apply Rmult_lt_reg_r with (x ^ 3); [pos|].
  replace (3 * mu x / x ^ 3 * x ^ 3) with (3 * mu x) by (field; lra). replace (/ (x * (1 + x) ^ 2) * x ^ 3) with (x ^ 2 / (1 + x) ^ 2) by (field; lra). exact H0.
Qed.
(** ... so with the density in Msun/pc^3, as the documentation of the class says, the mean density is a thousand million times too small *)
Theorem C63_density_units_refuted : exists m r, 0 < rho0 m /\ 0 < rc m /\ 0 < r /\ getRhoMean m r < nfw (rho0 m) (rc m) r.
Proof.
  exists (Halo 1 1 None), 1. cbn [rho0 rc]. repeat split; try lra. rewrite rhomean_eq by (cbn [rc]; lra). cbn [rho0 rc]. replace (1 / 1) with 1 by field. pose proof (mu_pos 1 ltac:(lra)). unfold nfw. replace (1 / 1) with 1 by field. lra.
Qed.
Theorem C63_virial_unique : forall m rhov r1 r2, 0 < rho0 m -> 0 < rc m -> virial m rhov r1 -> virial m rhov r2 -> r1 = r2.
Proof.
  intros m rhov r1 r2 P Q [R1 E1] [R2 E2]. destruct (Rtotal_order r1 r2) as [L|[E|L]]; trivial; exfalso.
  - pose proof (C63_mean_density_decreases m r1 r2 P Q (conj R1 L)). lra.
  - pose proof (C63_mean_density_decreases m r2 r1 P Q (conj R2 L)). lra.
Qed.
Lemma mu_lower x : 0 < x -> x ^ 2 / (2 * (1 + x) ^ 2) < mu x.
Proof.
  intros X. assert (D : (fun t => mu t - t ^ 2 / (2 * (1 + x) ^ 2)) 0 < (fun t => mu t - t ^ 2 / (2 * (1 + x) ^ 2)) x).
  { apply (incr_by_derivative (fun t => mu t - t ^ 2 / (2 * (1 + x) ^ 2)) (fun t => t / (1 + t) ^ 2 - t / (1 + x) ^ 2)); trivial.
    - intros y Y. unfold mu. auto_derive. { repeat split; lra. } field. lra.
    - intros y Y. assert (y / (1 + x) ^ 2 < y / (1 + y) ^ 2); [|lra]. unfold Rdiv. apply Rmult_lt_compat_l; [lra|]. apply Rinv_lt_contravar; [pos|]. nra. }
  cbv beta in D. rewrite mu_0 in D. replace (0 ^ 2 / (2 * (1 + x) ^ 2)) with 0 in D by (field; lra). lra.
Qed.
Theorem C63_virial_exists : forall m rhov, 0 < rho0 m -> 0 < rc m -> 0 < rhov -> exists r, virial m rhov r.
Proof.
  intros m rhov P Q V. set (k := 3 * rho0 m / 10 ^ 9). assert (K : 0 < k) by (unfold k; pos).
  assert (X : exists x, 0 < x /\ mu x / x ^ 3 = rhov / k).
  { set (t := rhov / k). assert (T : 0 < t) by (unfold t; pos). 
    set (a := / (8 * t + 1)). assert (A : 0 < a < 1). { unfold a. split; [pos|]. rewrite <- Rinv_1 at 2. apply Rinv_lt_contravar; lra. }
    set (b := 1 + 1 + / t). assert (B : 2 < b). { unfold b. assert (0 < / t) by pos. lra. }
    assert (FA : t < mu a / a ^ 3). { apply Rlt_trans with (a ^ 2 / (2 * (1 + a) ^ 2) / a ^ 3); [|unfold Rdiv at 1 3; apply Rmult_lt_compat_r; [pos|now apply mu_lower]].
      replace (a ^ 2 / (2 * (1 + a) ^ 2) / a ^ 3) with (/ (2 * (1 + a) ^ 2) * / a) by (field; lra). unfold a at 2. rewrite Rinv_inv. assert (/ 8 <= / (2 * (1 + a) ^ 2)). { apply Rinv_le_contravar; [pos|nra]. } nra. }
    assert (FB : mu b / b ^ 3 < t). { apply Rlt_trans with (b / b ^ 3). { unfold Rdiv. apply Rmult_lt_compat_r; [pos|]. apply mu_pos. lra. } replace (b / b ^ 3) with (/ b * / b) by (field; lra).
      assert (/ b < / 1) by (apply Rinv_lt_contravar; lra). rewrite Rinv_1 in H. assert (0 < / b) by pos. assert (/ b < t). { rewrite <- (Rinv_inv t). apply Rinv_lt_contravar; [|unfold b; lra]. assert (0 < / t) by pos. pos. } nra. }
    destruct (IVT_interv (fun x => t - mu x / x ^ 3) a b) as (x & Bx & E).
    - intros x Bx. apply continuity_pt_minus; [apply continuity_pt_const; now intros ? ?|]. apply continuity_pt_filterlim. apply (ex_derive_continuous (fun x => mu x / x ^ 3)). unfold mu. auto_derive. repeat split; try lra. apply Rgt_not_eq. pos.
    - lra.
    - cbv beta. lra.
    - cbv beta. lra.
    - exists x. split; lra. }
  destruct X as (x & X & E). exists (x * rc m). split; [pos|]. rewrite rhomean_eq by (trivial; pos). replace (x * rc m / rc m) with x by (field; lra). rewrite E. fold k. field. lra.
Qed.

(** C63: setC.  Whatever is given, the mass within the virial radius is the virial mass and the scale radius is Rvir/c *)
Definition given_radius (Rvir Mvir : option R) (rhov current : R) (Rv : R) : Prop :=
  match Rvir, Mvir with
  | Some r, _ => Rv = r
  | None, Some M => 0 < Rv /\ M = 4 / 3 * PI * (1000 * Rv) ^ 3 * rhov
  | None, None => 0 < Rv /\ current = 4 / 3 * PI * (1000 * Rv) ^ 3 * rhov
  end.
Definition given_mass (Rvir Mvir : option R) (rhov current : R) (Mv : R) : Prop :=
  match Mvir, Rvir with Some M, _ => Mv = M | None, Some r => Mv = 4 / 3 * PI * (1000 * r) ^ 3 * rhov | None, None => Mv = current end.
Lemma norm_mass p q sv r : 0 < p -> 0 < q -> 0 < r -> forall M, integrateSpherical (Halo (M / integrateSpherical (Halo p q sv) 0 r * p) q sv) 0 r = M.
Proof.
  intros P Q R M. pose proof (mass_pos (Halo p q sv) r P Q R) as G. rewrite !mass_eq in *. cbn [rho0 rc] in *. set (k := mu (r / q)) in *. pose proof PI_RGT_0. assert (0 < q ^ 3) by pos.
  assert (0 < k). { apply (Rmult_lt_reg_l (4 * PI * p * q ^ 3)); [pos|lra]. } clearbody k. field. repeat split; lra.
Qed.
Lemma cube_root x : 0 < x -> Rpower x (1 / 3) ^ 3 = x.
Proof. intros. rewrite <- Rpower_pow by apply exp_pos. rewrite Rpower_mult. replace (1 / 3 * INR 3) with 1 by (simpl; lra). now apply Rpower_1. Qed.
Lemma cube_inj x y : 0 < x -> 0 < y -> x ^ 3 = y ^ 3 -> x = y.
Proof. intros X Y E. destruct (Rtotal_order x y) as [L|[?|L]]; trivial; exfalso; assert (0 < x * x + x * y + y * y) by nra; assert ((x - y) * (x * x + x * y + y * y) = 0) by (ring_simplify; lra); nra. Qed.
Lemma setC_eq m c Rvir Mvir rhov current Rv Mv : 0 < rhov -> 0 < current -> given_radius Rvir Mvir rhov current Rv -> given_mass Rvir Mvir rhov current Mv -> 0 < Mv ->
  exists sv, setC m c Rvir Mvir rhov current = Halo (Mv / integrateSpherical (Halo 1 (Rv / c) sv) 0 Rv) (Rv / c) sv /\ sv = match Rvir, Mvir with Some _, Some _ => Some c | _, _ => saved_c m end.
Proof.
  intros V C GR GM PM. pose proof PI_RGT_0. unfold setC, given_radius, given_mass in *.
  assert (K : forall M, 0 < M -> 0 < Rv -> M = 4 / 3 * PI * (1000 * Rv) ^ 3 * rhov -> / 1000 * Rpower (3 * M / (4 * PI * rhov)) (1 / 3) = Rv).
  { intros M HM R E. apply cube_inj; trivial. { apply Rmult_lt_0_compat; [lra|apply exp_pos]. } rewrite Rpow_mult_distr, cube_root by pos. rewrite E. field. lra. }
  destruct Rvir as [r|], Mvir as [M|]; subst; eexists; (split; [|reflexivity]); trivial.
  - f_equal. f_equal. field.
  - destruct GR as [R E]. now rewrite (K _ PM R E).
  - destruct GR as [R E]. now rewrite (K _ PM R E).
Qed.
Theorem C63_setC : forall m c Rvir Mvir rhov current Rv Mv, 0 < c -> 0 < rhov -> 0 < current -> 0 < Rv -> 0 < Mv ->
  given_radius Rvir Mvir rhov current Rv -> given_mass Rvir Mvir rhov current Mv ->
  let m' := setC m c Rvir Mvir rhov current in rc m' = Rv / c /\ 0 < rho0 m' /\ mass_within (nfw (rho0 m') (rc m')) Rv Mv /\
  (Rvir = None \/ Mvir = None -> forall rv, virial m' rhov rv <-> rv = Rv) /\
  (Rvir = None \/ Mvir = None -> saved_c m = None -> getC m' Rv = c /\ getMv m' Rv = Mv) /\
  (Rvir <> None -> Mvir <> None -> forall rv, getC m' rv = c).
Proof.
  intros m c Rvir Mvir rhov current Rv Mv PC V C PR PM GR GM m'. pose proof PI_RGT_0. destruct (setC_eq m c Rvir Mvir rhov current Rv Mv V C GR GM PM) as (sv & E & SV). unfold m'. rewrite E. cbn [rc rho0].
  assert (Q : 0 < Rv / c) by pos. pose proof (mass_pos (Halo 1 (Rv / c) sv) Rv ltac:(cbn; lra) Q PR) as G. set (a0 := integrateSpherical _ 0 Rv) in *.
  assert (P0 : 0 < Mv / a0) by pos. assert (W : integrateSpherical (Halo (Mv / a0) (Rv / c) sv) 0 Rv = Mv). { pose proof (norm_mass 1 (Rv / c) sv Rv ltac:(lra) Q PR Mv) as N. rewrite Rmult_1_r in N. exact N. }
  split; [reflexivity|split; [exact P0|split]].
  { pose proof (C62_nfw (Mv / a0) (Rv / c) sv Rv Q PR) as N. now rewrite W in N. }
  assert (MV : Rvir = None \/ Mvir = None -> Mv = 4 / 3 * PI * (1000 * Rv) ^ 3 * rhov). { unfold given_radius, given_mass in *. intros D. destruct Rvir, Mvir; destruct D; try congruence; subst; tauto. }
  assert (VR : Rvir = None \/ Mvir = None -> virial (Halo (Mv / a0) (Rv / c) sv) rhov Rv). { intros D. split; trivial. unfold getRhoMean. rewrite W, (MV D). field. lra. }
  split; [|split].
  - intros D rv. split; [|intros ->; now apply VR]. intros B. apply (C63_virial_unique (Halo (Mv / a0) (Rv / c) sv) rhov); trivial. now apply VR.
  - intros D N. split; [|exact W]. unfold getC. cbn [saved_c rc]. rewrite SV. destruct Rvir, Mvir; try (destruct D; congruence); rewrite N; field; lra.
  - intros N1 N2 rv. unfold getC. cbn [saved_c]. rewrite SV. destruct Rvir, Mvir; congruence.
Qed.
(** ... but a concentration saved by a call with both stays when setC is called again with one *)
Theorem C63_stale_c_refuted : exists m R1 M1 R2 rhov, 0 < rhov /\ 0 < R1 /\ 0 < M1 /\ 0 < R2 /\ forall rv, getC (setC (setC m 10 (Some R1) (Some M1) rhov 1) 5 (Some R2) None rhov 1) rv = 10.
Proof. exists (Halo 1 1 None), 1, 1, 1, 1. repeat split; try lra. Qed.

(** ** the maximum circular velocity *)
Definition psi (x : R) : R := (2 * x ^ 2 + x) / (1 + x) ^ 2 - ln (1 + x).
Lemma psi_derive x : 0 <= x -> is_derive psi x (x * (1 - x) / (1 + x) ^ 3).
Proof. intros. unfold psi. auto_derive. { repeat split; try lra. apply Rgt_not_eq. pos. } field. lra. Qed.
Lemma psi_0 : psi 0 = 0.
Proof. unfold psi. replace (1 + 0) with 1 by ring. rewrite ln_1. field. Qed.
Lemma psi_pos x0 x : 1 < x0 -> 0 < psi x0 -> 0 < x <= x0 -> 0 < psi x.
Proof.
  intros X0 P X. destruct (Rle_lt_dec x 1) as [L|L].
  - rewrite <- psi_0. apply (incr_by_derivative psi (fun t => t * (1 - t) / (1 + t) ^ 3)); [lra|intros; apply psi_derive; lra|]. intros y Y. pos.
  - destruct (Rle_lt_or_eq_dec x x0 (proj2 X)) as [S0|E]; [|now rewrite E]. apply Rlt_trans with (1 := P).
    apply (decr_by_derivative psi (fun t => t * (1 - t) / (1 + t) ^ 3)); [lra|intros; apply psi_derive; lra|]. intros y Y. assert (0 < y * (y - 1) / (1 + y) ^ 3) by pos. unfold Rdiv in *. lra.
Qed.
Lemma psi_neg x0 x : 1 < x0 -> psi x0 < 0 -> x0 <= x -> psi x < 0.
Proof.
  intros X0 P [X|X]; [|now rewrite <- X]. apply Rlt_trans with (2 := P).
  apply (decr_by_derivative psi (fun t => t * (1 - t) / (1 + t) ^ 3)); [lra|intros; apply psi_derive; lra|]. intros y Y. assert (0 < y * (y - 1) / (1 + y) ^ 3) by pos. unfold Rdiv in *. lra.
Qed.
Lemma mux_derive x : 0 < x -> is_derive (fun t => mu t / t) x (psi x / x ^ 2).
Proof. intros. evar_last. { apply (is_derive_div mu (fun t => t)); [apply mu_derive; lra|auto_derive; trivial|lra]. } unfold psi, mu. simpl. field. lra. Qed.
(** the two sides of the root of psi *)
Lemma psi_low : 0 < psi 2.16258.
Proof.
  unfold psi. apply Rlt_Rminus. rewrite <- (ln_exp (_ / _)). apply ln_increasing; [lra|]. replace (1 + 2.16258) with 3.16258 by lra.
  assert (L : 1.15138822 < (2 * 2.16258 ^ 2 + 2.16258) / 3.16258 ^ 2) by lra. 
  apply Rlt_trans with (exp 1.15138822); [|apply exp_increasing; exact L]. apply Rle_lt_trans with (2 := exp_lower8 1.15138822 ltac:(lra)). unfold tay. lra.
Qed.
Lemma psi_high : psi 2.1625835 < 0.
Proof.
  unfold psi. apply Rlt_minus. rewrite <- (ln_exp (_ / _)). apply ln_increasing; [apply exp_pos|]. replace (1 + 2.1625835) with 3.1625835 by lra.
  assert (L : (2 * 2.1625835 ^ 2 + 2.1625835) / 3.1625835 ^ 2 < 1.15138917) by lra. 
  apply Rlt_trans with (exp 1.15138917); [apply exp_increasing; exact L|]. apply Rlt_le_trans with (1 := exp_upper8 1.15138917 ltac:(lra)). unfold tay. lra.
Qed.
Lemma mux_incr a b : 0 < a < b -> b <= (1 - / 1000000) * xmin -> mu a / a < mu b / b.
Proof.
  intros A B. apply (incr_by_derivative (fun t => mu t / t) (fun t => psi t / t ^ 2)); [lra|intros; apply mux_derive; lra|]. intros y Y. unfold xmin in B.
  assert (0 < psi y). { apply (psi_pos 2.16258); [lra|apply psi_low|lra]. } pos.
Qed.
Lemma mux_decr a b : a < b -> (1 + / 1000000) * xmin <= a -> mu b / b < mu a / a.
Proof.
  intros A B. unfold xmin in B. apply (decr_by_derivative (fun t => mu t / t) (fun t => psi t / t ^ 2)); [lra|intros; apply mux_derive; lra|]. intros y Y.
  assert (psi y < 0). { apply (psi_neg 2.1625835); [lra|apply psi_high|lra]. } assert (0 < - psi y / y ^ 2) by pos. unfold Rdiv in *. lra.
Qed.
Lemma v_eq G m r : 0 < rc m -> 0 < r -> getV G m r = sqrt (G / 1000 * 4 * PI * rho0 m * rc m ^ 2 * (mu (r / rc m) / (r / rc m))).
Proof. intros. unfold getV. f_equal. rewrite mass_eq. field. split; lra. Qed.
(** C63: the circular velocity is sqrt(GM/r) and has its only maximum at the radius getVmax returns, to one part in a million *)
Theorem C63_vmax_location : forall G m r1 r2, 0 < G -> 0 < rho0 m -> 0 < rc m -> 0 < r1 < r2 -> let rmax := snd (getVmax G m) in
  (r2 <= (1 - / 1000000) * rmax -> getV G m r1 < getV G m r2) /\ ((1 + / 1000000) * rmax <= r1 -> getV G m r2 < getV G m r1).
Proof.
  intros G m r1 r2 PG P Q R rmax. pose proof PI_RGT_0. unfold getVmax in rmax. cbn [snd] in rmax. subst rmax. rewrite !v_eq by lra. set (k := G / 1000 * 4 * PI * rho0 m * rc m ^ 2). assert (K : 0 < k) by (unfold k; pos).
  assert (X1 : 0 < r1 / rc m) by pos. assert (X2 : r1 / rc m < r2 / rc m). { unfold Rdiv. apply Rmult_lt_compat_r; [pos|lra]. }
  assert (V : forall y, 0 < y -> 0 <= k * (mu y / y)). { intros y Y. pose proof (mu_pos y Y). left. pos. }
  assert (SC : forall a, a * (rc m * xmin) / rc m = a * xmin) by (intros; field; lra).
  split; intros B; apply sqrt_lt_1; try (apply V; lra); apply Rmult_lt_compat_l; trivial.
  - apply mux_incr; [lra|]. rewrite <- SC. unfold Rdiv. apply Rmult_le_compat_r; [left; pos|lra].
  - apply mux_decr; [lra|]. rewrite <- SC. unfold Rdiv. apply Rmult_le_compat_r; [left; pos|lra].
Qed.
(** ... and nowhere is the velocity above the returned maximum, to three parts in a million *)
Theorem C63_vmax_bound : forall G m r, 0 < G -> 0 < rho0 m -> 0 < rc m -> 0 < r -> getV G m r <= (1 + 3 / 1000000) * fst (getVmax G m).
Proof.
  intros G m r PG P Q R. pose proof PI_RGT_0. unfold getVmax. cbn [fst]. assert (XM : 0 < rc m * xmin) by (unfold xmin; pos). rewrite !v_eq by lra. set (k := G / 1000 * 4 * PI * rho0 m * rc m ^ 2). assert (K : 0 < k) by (unfold k; pos).
  replace (rc m * xmin / rc m) with xmin by (field; lra). assert (X : 0 < r / rc m) by pos. set (x := r / rc m) in *. clearbody x.
  set (e := / 1000000). assert (Wn : forall y, (1 - e) * xmin <= y <= (1 + e) * xmin -> mu y / y <= (1 + 3 * e) ^ 2 * (mu xmin / xmin)).
  { intros y Y. unfold e, xmin in Y. assert (0 < y) by lra. pose proof (mu_pos xmin ltac:(unfold xmin; lra)) as MX. pose proof (mu_pos y H0).
    assert (M : mu y <= (1 + e) ^ 3 * mu xmin).
    { destruct (Rle_lt_dec y xmin) as [L|L].
      - destruct L as [L|L]; [|subst y]. 2:{ apply Rle_trans with (1 * mu xmin); [lra|]. apply Rmult_le_compat_r; [lra|]. unfold e. lra. }
        assert (mu y < mu xmin). { apply (incr_by_derivative mu (fun t => t / (1 + t) ^ 2)); [lra|intros; apply mu_derive; lra|]. intros t T. pos. } apply Rle_trans with (1 * mu xmin); [lra|]. apply Rmult_le_compat_r; [lra|]. unfold e. lra.
      - pose proof (mu3_decr xmin y ltac:(unfold xmin in *; lra)) as D. assert (XP : 0 < xmin) by (unfold xmin; lra).
        apply (Rmult_lt_compat_r (y ^ 3)) in D; [|pos]. replace (mu y / y ^ 3 * y ^ 3) with (mu y) in D by (field; lra). apply Rlt_le, Rlt_le_trans with (1 := D).
        replace (mu xmin / xmin ^ 3 * y ^ 3) with ((y / xmin) ^ 3 * mu xmin) by (field; lra). apply Rmult_le_compat_r; [lra|]. apply pow_incr. split; [left; pos|]. apply Rmult_le_reg_r with xmin; trivial. replace (y / xmin * xmin) with y by (field; lra). unfold e, xmin. lra. }
    assert (XP : 0 < xmin) by (unfold xmin; lra). apply Rle_trans with ((1 + e) ^ 3 * mu xmin / ((1 - e) * xmin)).
    { unfold Rdiv. apply Rmult_le_compat; [lra|left; pos|exact M|]. apply Rinv_le_contravar; [|unfold e, xmin; lra]. unfold e. pos. }
    replace ((1 + e) ^ 3 * mu xmin / ((1 - e) * xmin)) with ((1 + e) ^ 3 / (1 - e) * (mu xmin / xmin)) by (field; unfold e; lra). apply Rmult_le_compat_r; [left; pos|]. unfold e. lra. }
  assert (A : mu x / x <= (1 + 3 * e) ^ 2 * (mu xmin / xmin)).
  { destruct (Rlt_le_dec x ((1 - e) * xmin)) as [L|L]. { apply Rle_trans with (mu ((1 - e) * xmin) / ((1 - e) * xmin)); [left; apply mux_incr; unfold e in *; lra|]. apply Wn. unfold e, xmin. lra. }
    destruct (Rlt_le_dec ((1 + e) * xmin) x) as [U|U]; [|apply Wn; lra]. apply Rle_trans with (mu ((1 + e) * xmin) / ((1 + e) * xmin)); [left; apply mux_decr; unfold e in *; lra|]. apply Wn. unfold e, xmin. lra. }
  pose proof (mu_pos xmin ltac:(unfold xmin; lra)) as MX. pose proof (mu_pos x X).
  replace (1 + 3 / 1000000) with (sqrt ((1 + 3 * e) ^ 2)). 2:{ rewrite <- Rsqr_pow2, sqrt_Rsqr; unfold e; lra. } rewrite <- sqrt_mult_alt by (apply pow2_ge_0). apply sqrt_le_1_alt. replace ((1 + 3 * e) ^ 2 * (k * (mu xmin / xmin))) with (k * ((1 + 3 * e) ^ 2 * (mu xmin / xmin))) by ring. apply Rmult_le_compat_l; lra.
Qed.
(** create_VmaxRvmax: the model it makes has its maximum 0.12 per cent outside the radius asked for *)
Theorem C63_create_vmax_refuted : forall G p sv rvmax, 0 < rvmax -> 1.001 * rvmax < snd (getVmax G (Halo p (rc_of_rvmax rvmax) sv)) < 1.002 * rvmax.
Proof. intros. unfold getVmax, rc_of_rvmax, xmin. cbn [snd rc]. split; lra. Qed.
Example C63_nonvacuous : given_radius (Some 300) None (/ 1000000) 1 300 /\ given_mass (Some 300) None (/ 1000000) 1 (4 / 3 * PI * (1000 * 300) ^ 3 * / 1000000) /\ getC (setC (Halo 1 1 None) 10 (Some 300) None (/ 1000000) 1) 300 = 10.
Proof. split; [reflexivity|split; [reflexivity|]]. unfold getC, setC. cbn [saved_c rc]. field. Qed.

(** ** C64: the scalings *)
Lemma rp_cube_inv x : 0 < x -> Rpower x (- 1 / 3) ^ 3 = / x.
Proof. intros. rewrite <- Rpower_pow by apply exp_pos. rewrite Rpower_mult. replace (- 1 / 3 * INR 3) with (Ropp 1) by (simpl; lra). rewrite Rpower_Ropp, Rpower_1; trivial. Qed.
Theorem C64_radius_mass : forall hub omega dv z, 0 < hub -> 0 < omega * dv -> -1 < z ->
  (forall M, 0 < M -> Rvir_to_Mvir hub omega dv z (Mvir_to_Rvir hub omega dv z M) = M) /\ (forall r, 0 < r -> Mvir_to_Rvir hub omega dv z (Rvir_to_Mvir hub omega dv z r) = r).
Proof.
  intros hub omega dv z H O Z. set (w := omega * dv / 97.2). assert (W : 0 < w) by (unfold w; pos).
  assert (A : forall M, 0 < M -> Rvir_to_Mvir hub omega dv z (Mvir_to_Rvir hub omega dv z M) = M).
  { intros M P. unfold Rvir_to_Mvir, Mvir_to_Rvir. fold w. set (a := Rpower w _). set (b := Rpower _ _). assert (Ea : a ^ 3 = / w) by (now apply rp_cube_inv). assert (Eb : b ^ 3 = M * hub / 10 ^ 12) by (apply cube_root; pos).
    replace (203.4 / hub * a * b / (1 + z) * hub * (1 + z) / 203.4) with (a * b) by (field; repeat split; lra). rewrite Rpow_mult_distr, Ea, Eb. field. repeat split; lra. }
  split; [exact A|]. intros r P. assert (PM : 0 < Rvir_to_Mvir hub omega dv z r). { unfold Rvir_to_Mvir. fold w. pos. }
  assert (PR : 0 < Mvir_to_Rvir hub omega dv z (Rvir_to_Mvir hub omega dv z r)). { unfold Mvir_to_Rvir. assert (0 < Rpower (omega * dv / 97.2) (-1 / 3)) by apply exp_pos. set (b := Rpower _ (1 / 3)). assert (0 < b) by apply exp_pos. pos. }
  pose proof (A _ PM) as E. set (r' := Mvir_to_Rvir _ _ _ _ _) in *. unfold Rvir_to_Mvir in E. fold w in E.
  assert (10 ^ 12 / hub * w > 0) by pos. apply Rmult_eq_reg_l in E; [|lra]. apply cube_inj in E; [|pos|pos].
  apply (f_equal (fun t => t * 203.4 / hub / (1 + z))) in E. replace (r' * hub * (1 + z) / 203.4 * 203.4 / hub / (1 + z)) with r' in E by (field; repeat split; lra). rewrite E. field. repeat split; lra.
Qed.
Theorem C64_mass_velocity : forall hub omega dv z, 0 < hub -> 0 < omega * dv -> -1 < z ->
  (forall M, 0 < M -> Vvir_to_Mvir hub omega dv z (Mvir_to_Vvir hub omega dv z M) = M) /\ (forall v, 0 < v -> Mvir_to_Vvir hub omega dv z (Vvir_to_Mvir hub omega dv z v) = v).
Proof.
  intros hub omega dv z H O Z. set (w := omega * dv / 97.2). assert (W : 0 < w) by (unfold w; pos). assert (Zp : 0 < 1 + z) by lra.
  assert (sw : 0 < sqrt w) by (now apply sqrt_lt_R0). assert (sz : 0 < sqrt (1 + z)) by (now apply sqrt_lt_R0).
  assert (Ez : Rpower (1 + z) (- 3 / 2) = / sqrt (1 + z) ^ 3). { rewrite <- Rpower_sqrt by trivial. rewrite <- Rpower_pow by apply exp_pos. rewrite Rpower_mult, <- Rpower_Ropp. f_equal. simpl. lra. }
  assert (Ew : Rpower w (1 / 6) ^ 3 = sqrt w). { rewrite <- Rpower_pow by apply exp_pos. rewrite Rpower_mult, <- Rpower_sqrt by trivial. f_equal. simpl. lra. }
  assert (A : forall M, 0 < M -> Vvir_to_Mvir hub omega dv z (Mvir_to_Vvir hub omega dv z M) = M).
  { intros M P. unfold Vvir_to_Mvir, Mvir_to_Vvir. fold w. rewrite Ez. set (a := Rpower w _) in *. set (b := Rpower _ _). assert (Eb : b ^ 3 = M * hub / 10 ^ 12) by (apply cube_root; pos).
    replace (143.8 * a * b * sqrt (1 + z) / 143.8) with (a * b * sqrt (1 + z)) by (field; lra). rewrite !Rpow_mult_distr, Ew, Eb. field. repeat split; lra. }
  split; [exact A|]. intros v P. assert (PM : 0 < Vvir_to_Mvir hub omega dv z v). { unfold Vvir_to_Mvir. fold w. rewrite Ez. pos. }
  assert (PR : 0 < Mvir_to_Vvir hub omega dv z (Vvir_to_Mvir hub omega dv z v)). { unfold Mvir_to_Vvir. fold w. set (b := Rpower _ (1 / 3)). assert (0 < b) by apply exp_pos. assert (0 < Rpower w (1 / 6)) by apply exp_pos. pos. }
  pose proof (A _ PM) as E. set (v' := Mvir_to_Vvir _ _ _ _ _) in *. unfold Vvir_to_Mvir in E. fold w in E. rewrite Ez in E.
  apply (f_equal (fun t => t * hub * sqrt w * sqrt (1 + z) ^ 3 / 10 ^ 12)) in E. 
  replace (/ sqrt w * / sqrt (1 + z) ^ 3 * 10 ^ 12 * (v' / 143.8) ^ 3 / hub * hub * sqrt w * sqrt (1 + z) ^ 3 / 10 ^ 12) with ((v' / 143.8) ^ 3) in E by (field; repeat split; lra).
  replace (/ sqrt w * / sqrt (1 + z) ^ 3 * 10 ^ 12 * (v / 143.8) ^ 3 / hub * hub * sqrt w * sqrt (1 + z) ^ 3 / 10 ^ 12) with ((v / 143.8) ^ 3) in E by (field; repeat split; lra).
  apply cube_inj in E; [|pos|pos]. lra.
Qed.
Theorem C64_vmax : (forall v, 0 < v -> Vmax_to_Vvir (Vvir_to_Vmax v) = v) /\ (forall v, 0 < v -> Vvir_to_Vmax (Vmax_to_Vvir v) = v).
Proof.
  unfold Vmax_to_Vvir, Vvir_to_Vmax. split; intros v P.
  - rewrite Rpower_mult. replace (1 / 1.1 * 1.1) with 1 by lra. rewrite Rpower_1 by pos. lra.
  - replace (0.468 * Rpower v 1.1 / 0.468) with (Rpower v 1.1) by lra. rewrite Rpower_mult. replace (1.1 * (1 / 1.1)) with 1 by lra. now apply Rpower_1.
Qed.
Theorem C64_vmax_mass : forall hub omega dv z, 0 < hub -> 0 < omega * dv -> -1 < z ->
  (forall M, 0 < M -> Vmax_to_Mvir hub omega dv z (Mvir_to_Vmax hub omega dv z M) = M) /\ (forall v, 0 < v -> Mvir_to_Vmax hub omega dv z (Vmax_to_Mvir hub omega dv z v) = v).
Proof.
  intros hub omega dv z H O Z. destruct (C64_mass_velocity hub omega dv z H O Z) as [A B]. destruct C64_vmax as [C D]. unfold Vmax_to_Mvir, Mvir_to_Vmax. split; intros x P.
  - rewrite C; [now apply A|]. unfold Mvir_to_Vvir. assert (0 < Rpower (omega * dv / 97.2) (1 / 6)) by apply exp_pos. assert (0 < sqrt (1 + z)) by (apply sqrt_lt_R0; lra). set (b := Rpower _ (1 / 3)). assert (0 < b) by apply exp_pos. pos.
  - rewrite B; [now apply D|]. unfold Vmax_to_Vvir. assert (0 < Rpower x 1.1) by apply exp_pos. pos.
Qed.
(** the concentration of a mass is at least 4 and never grows with the mass or the redshift *)
Theorem C64_concentration : forall z z' H0 M M', 0 < H0 -> 0 < M <= M' -> -1 < z <= z' -> 4 <= Mvir_to_Cvir z' H0 M' <= Mvir_to_Cvir z H0 M.
Proof.
  intros z z' H0 M M' PH PM PZ. unfold Mvir_to_Cvir. set (a := 9.6 * Rpower (M * _ / _) _ * _). set (b := 9.6 * Rpower (M' * _ / _) _ * _).
  assert (b <= a). { unfold a, b. assert (Rpower (M' * (H0 / 72) / 10 ^ 13) (- (13 / 100)) <= Rpower (M * (H0 / 72) / 10 ^ 13) (- (13 / 100))).
    { destruct (proj2 PM) as [L|L]; [|now rewrite L; right]. unfold Rpower. left. apply exp_increasing. assert (ln (M * (H0 / 72) / 10 ^ 13) < ln (M' * (H0 / 72) / 10 ^ 13)); [|lra]. apply ln_increasing; [pos|]. unfold Rdiv at 1 3. apply Rmult_lt_compat_r; [pos|]. apply Rmult_lt_compat_r; [pos|lra]. }
    assert (0 < Rpower (M' * (H0 / 72) / 10 ^ 13) (- (13 / 100))) by apply exp_pos. assert (0 < / (1 + z')) by pos. assert (/ (1 + z') <= / (1 + z)) by (apply Rinv_le_contravar; lra). apply Rmult_le_compat; lra. }
  destruct (Rlt_dec 4 a), (Rlt_dec 4 b); lra.
Qed.
(** a halo created from a mass has that mass within the radius of the scaling, the concentration of the scaling, and is the halo created from that radius *)
Theorem C64_create : forall hub omega dv z H0 M, 0 < hub -> 0 < omega * dv -> -1 < z -> 0 < H0 -> 0 < M ->
  let m := create_Mvir hub omega dv z H0 M in let r := Mvir_to_Rvir hub omega dv z M in
  mass_within (nfw (rho0 m) (rc m)) r M /\ (forall rv, getC m rv = Mvir_to_Cvir z H0 M) /\ rc m = r / Mvir_to_Cvir z H0 M /\ create_Rvir hub omega dv z H0 r = m.
Proof.
  intros hub omega dv z H0 M H O Z PH PM m r. assert (PR : 0 < r). { unfold r, Mvir_to_Rvir. assert (0 < Rpower (omega * dv / 97.2) (-1 / 3)) by apply exp_pos. set (b := Rpower _ (1 / 3)). assert (0 < b) by apply exp_pos. pos. }
  assert (PC : 0 < Mvir_to_Cvir z H0 M). { pose proof (C64_concentration z z H0 M M PH ltac:(lra) ltac:(lra)). lra. }
  assert (E : create_Rvir hub omega dv z H0 r = m). { unfold create_Rvir, m, create_Mvir. unfold r. rewrite (proj1 (C64_radius_mass hub omega dv z H O Z)) by trivial. reflexivity. }
  pose proof (C63_setC (Halo 1 1 None) (Mvir_to_Cvir z H0 M) (Some r) (Some M) 1 1 r M PC Rlt_0_1 Rlt_0_1 PR PM eq_refl eq_refl) as (A1 & _ & A3 & _ & _ & A6).
  split; [exact A3|split; [|split; [exact A1|exact E]]]. intros rv. now apply A6.
Qed.
(** none of it is possible from a concentration: the function refers to a name that does not exist *)
Theorem C64_create_Cvir_refuted : forall hub omega dv z c, create_Cvir hub omega dv z c = Raise NameError.
Proof. reflexivity. Qed.
(** the virial radius of a maximum velocity is the radius of its mass, at redshift 0; at any other redshift the mass is the one of redshift 0 *)
Theorem C64_vmax_radius : forall hub omega dv v, 0 < hub -> 0 < omega * dv -> 0 < v ->
  let r := Vmax_to_Rvir hub omega dv dv 0 v in Mvir_to_Vmax hub omega dv 0 (Rvir_to_Mvir hub omega dv 0 r) = v /\ Rvir_to_Mvir hub omega dv 0 r = Vmax_to_Mvir hub omega dv 0 v.
Proof.
  intros hub omega dv v H O V r. assert (Z : -1 < 0) by lra. destruct (C64_vmax_mass hub omega dv 0 H O Z) as [_ B]. destruct (C64_radius_mass hub omega dv 0 H O Z) as [A _].
  assert (PM : 0 < Vmax_to_Mvir hub omega dv 0 v).
  { unfold Vmax_to_Mvir, Vvir_to_Mvir, Vmax_to_Vvir. assert (0 < omega * dv / 97.2) by lra. pose proof (sqrt_lt_R0 _ H0). pose proof (exp_pos (1.1 * ln v)). pose proof (exp_pos (-3 / 2 * ln (1 + 0))). unfold Rpower. pos. }
  assert (E : Rvir_to_Mvir hub omega dv 0 r = Vmax_to_Mvir hub omega dv 0 v) by (apply A; exact PM). split; [|exact E]. rewrite E. now apply B.
Qed.
Theorem C64_vmax_radius_refuted : exists hub omega dv z v, 0 < hub /\ 0 < omega * dv /\ 0 < z /\ 0 < v /\ Vmax_to_Rvir hub omega dv dv z v <> Mvir_to_Rvir hub omega dv z (Vmax_to_Mvir hub omega dv z v).
Proof.
  exists 1, 1, 97.2, 3, 1. repeat split; try lra. unfold Vmax_to_Rvir. intros E. apply (f_equal (Rvir_to_Mvir 1 1 97.2 3)) in E. destruct (C64_radius_mass 1 1 97.2 3) as [A _]; try lra.
  assert (P : forall z, -1 < z -> 0 < Vmax_to_Mvir 1 1 97.2 z 1). { intros z Z. unfold Vmax_to_Mvir, Vvir_to_Mvir, Vmax_to_Vvir. assert (0 < Rpower (1 + z) (-3 / 2)) by apply exp_pos. assert (0 < Rpower 1 1.1) by apply exp_pos. replace (1 * 97.2 / 97.2) with 1 by lra. rewrite sqrt_1. pos. }
  rewrite !A in E by (apply P; lra). unfold Vmax_to_Mvir, Vvir_to_Mvir in E. set (v := Vmax_to_Vvir 1) in *. assert (0 < v). { unfold v, Vmax_to_Vvir. assert (0 < Rpower 1 1.1) by apply exp_pos. lra. }
  replace (1 * 97.2 / 97.2) with 1 in E by lra. rewrite sqrt_1 in E. assert (Q : 0 < (v / 143.8) ^ 3) by pos.
  assert (E' : Rpower (1 + 0) (-3 / 2) = Rpower (1 + 3) (-3 / 2)). { apply (Rmult_eq_reg_r ((v / 143.8) ^ 3 * 10 ^ 12)); lra. }
  replace (1 + 0) with 1 in E' by ring. unfold Rpower in E'. apply exp_inv in E'. rewrite ln_1 in E'. assert (0 < ln (1 + 3)) by (rewrite <- ln_1; apply ln_increasing; lra). lra.
Qed.
(** the velocity of a mass and radius: with the constant of the rotation curve it would be the circular velocity of the halo at its virial radius; the cgs constant is another number *)
Theorem C64_virial_velocity : forall G m c r M rhov, 0 < c -> 0 < r -> 0 < M -> getV G (setC m c (Some r) (Some M) rhov 1) r = RvirMvir_to_Vvir (G / 1000) r M.
Proof.
  intros G m c r M rhov H H0 H1. unfold getV, RvirMvir_to_Vvir. do 3 f_equal. unfold setC. pose proof (norm_mass 1 (r / c) (Some c) r ltac:(lra) ltac:(pos) H0 M) as N. rewrite Rmult_1_r in N. exact N.
Qed.
Theorem C64_virial_velocity_refuted : exists Gcgs G m c R M rhov, Gcgs = 6.673 / 10 ^ 8 /\ G = 1.3271244002 * 10 ^ 11 / 3.08568025 / 10 ^ 13 /\ 0 < c /\ 0 < R /\ 0 < M /\ RvirMvir_to_Vvir Gcgs R M <> getV G (setC m c (Some R) (Some M) rhov 1) R.
Proof.
  exists (6.673 / 10 ^ 8), (1.3271244002 * 10 ^ 11 / 3.08568025 / 10 ^ 13), (Halo 1 1 None), 1, 1, 1, 1. repeat split; try lra. rewrite C64_virial_velocity by lra. unfold RvirMvir_to_Vvir. intros E. apply sqrt_inj in E; lra.
Qed.
