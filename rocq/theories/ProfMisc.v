(** * ProfMisc: luminosity functions (C65) and the other profiles (C66) *)
From Coq Require Import List Bool Reals Lra Lia Psatz.
From Coquelicot Require Import Coquelicot.
From Verif Require Import PyBase SpecModel ProfModel ProfBlackbody ProfMass.
Import ListNotations.
Open Scope R_scope.

Lemma Rpower_pos x y : 0 < Rpower x y. Proof. apply exp_pos. Qed.
Lemma ln10_pos : 0 < ln 10. Proof. rewrite <- ln_1. apply ln_increasing; lra. Qed.
Definition xmag (Mstar M : R) : R := Rpower 10 (0.4 * (Mstar - M)).
Lemma xmag_derive Mstar M : is_derive (xmag Mstar) M (- (ln 10 * 0.4) * xmag Mstar M).
Proof. unfold xmag, Rpower. auto_derive; trivial. unfold Rminus. ring. Qed.
Lemma power_split x a b : 0 < x -> Rpower x (a + b) = Rpower x a * Rpower x b.
Proof. intros. apply Rpower_plus. Qed.

(** ** C65 *)
(** the two forms count the same galaxies: with L = Lstar 10^(0.4 (Mstar - M)), phi(M) dM = phi(L) |dL| *)
Theorem C65_mag_lum : forall Mstar Lstar alpha phistar M, 0 < Lstar -> exists d,
  is_derive (fun M => Lstar * Rpower 10 (0.4 * (Mstar - M))) M d /\ d < 0 /\ schechter_mag Mstar alpha phistar M = schechter_lum Lstar alpha phistar (Lstar * Rpower 10 (0.4 * (Mstar - M))) * Rabs d.
Proof.
  intros Mstar Lstar alpha phistar M PL. pose proof ln10_pos. pose proof (Rpower_pos 10 (0.4 * (Mstar - M))) as X. fold (xmag Mstar M) in X.
  exists (Lstar * (- (ln 10 * 0.4) * xmag Mstar M)). split; [|split].
  - apply (is_derive_scal (xmag Mstar) M Lstar). apply xmag_derive.
  - assert (0 < Lstar * (ln 10 * 0.4 * xmag Mstar M)) by pos. lra.
  - unfold schechter_mag, schechter_lum. fold (xmag Mstar M). set (x := xmag Mstar M) in *. replace (Lstar * x / Lstar) with x by (field; lra).
    replace (Lstar * (- (ln 10 * 0.4) * x)) with (- (Lstar * (ln 10 * 0.4 * x))) by ring. rewrite Rabs_Ropp, Rabs_pos_eq by (left; pos). rewrite power_split, Rpower_1 by trivial. field. lra.
Qed.
Theorem C65_lum_derivative : forall Lstar alpha phistar L, 0 < Lstar -> 0 < L -> is_derive (schechter_lum Lstar alpha phistar) L (schechter_lum_derivative Lstar alpha phistar L).
Proof.
  intros Lstar alpha phistar L PL P. assert (X : 0 < L / Lstar) by pos. unfold schechter_lum, schechter_lum_derivative. replace (alpha - 1) with (alpha + - (1)) by ring. rewrite power_split, Rpower_Ropp, Rpower_1 by trivial. unfold Rpower.
  auto_derive. { exact X. } replace (L * / Lstar) with (L / Lstar) by reflexivity. set (E := exp (alpha * _)). set (F := exp (- _)). clearbody E F. field. split; lra.
Qed.
(** the derivative of the magnitude form lacks a factor x = 10^(0.4 (Mstar - M)) *)
Theorem C65_mag_derivative_refuted : forall Mstar alpha phistar M,
  is_derive (schechter_mag Mstar alpha phistar) M (Rpower 10 (0.4 * (Mstar - M)) * schechter_mag_derivative Mstar alpha phistar M) /\
  (is_derive (schechter_mag Mstar alpha phistar) M (schechter_mag_derivative Mstar alpha phistar M) -> M = Mstar \/ schechter_mag_derivative Mstar alpha phistar M = 0).
Proof.
  intros Mstar alpha phistar M. fold (xmag Mstar M).
  assert (D : is_derive (schechter_mag Mstar alpha phistar) M (xmag Mstar M * schechter_mag_derivative Mstar alpha phistar M)).
  { apply (is_derive_ext (fun M => ln 10 * 0.4 * phistar * Rpower (xmag Mstar M) (1 + alpha) * exp (- xmag Mstar M))). { reflexivity. }
    pose proof (Rpower_pos 10 (0.4 * (Mstar - M))) as X. fold (xmag Mstar M) in X.
    evar_last. { apply (is_derive_comp (fun x => ln 10 * 0.4 * phistar * Rpower x (1 + alpha) * exp (- x)) (xmag Mstar)); [|apply xmag_derive]. unfold Rpower. auto_derive; [exact X|reflexivity]. }
    unfold scal; simpl; unfold mult; simpl. unfold schechter_mag_derivative. fold (xmag Mstar M). set (x := xmag Mstar M) in *. assert (RA : Rpower x alpha = Rpower x (1 + alpha) * / x). { replace alpha with ((1 + alpha) + - (1)) at 1 by ring. now rewrite power_split, Rpower_Ropp, Rpower_1 by trivial. } rewrite ?RA. unfold Rpower. set (E := exp ((1 + alpha) * ln x)). set (F := exp (- x)). clearbody E F. field. lra. }
  split; [exact D|]. intros D'. pose proof (is_derive_unique _ _ _ D) as U. rewrite (is_derive_unique _ _ _ D') in U. destruct (Req_dec (schechter_mag_derivative Mstar alpha phistar M) 0) as [Z|Z]; [now right|left].
  assert (X1 : xmag Mstar M = 1). { apply (Rmult_eq_reg_r (schechter_mag_derivative Mstar alpha phistar M)); trivial. lra. } unfold xmag, Rpower in X1. rewrite <- exp_0 in X1. apply exp_inv in X1. pose proof ln10_pos. nra.
Qed.
Section Integrals.
(** the incomplete gamma function of alpha + 1, whatever computes it *)
Variables (alpha : R) (g : R -> R) (G : R).
Definition is_incomplete_gamma : Prop := (forall x, 0 < x -> is_derive g x (Rpower x alpha * exp (- x))) /\ filterlim g (at_right 0) (locally 0) /\ filterlim g (Rbar_locally p_infty) (locally G).
End Integrals.
Lemma lum_prim alpha g G Lstar phistar L : is_incomplete_gamma alpha g G -> 0 < Lstar -> 0 < L -> is_derive (fun L => phistar * g (L / Lstar)) L (schechter_lum Lstar alpha phistar L).
Proof.
  intros (D & _) PL P. assert (X : 0 < L / Lstar) by pos. evar_last. { apply (is_derive_scal (fun L => g (L / Lstar)) L phistar). apply (is_derive_comp g (fun L => L / Lstar)); [apply D; trivial|]. auto_derive; trivial. }
  unfold scal; simpl; unfold mult; simpl. unfold schechter_lum. field. lra.
Qed.
Lemma lum_cont alpha Lstar phistar L : 0 < Lstar -> 0 < L -> continuous (schechter_lum Lstar alpha phistar) L.
Proof. intros. apply @ex_derive_continuous. eexists. now apply C65_lum_derivative. Qed.
(** luminosities: between two luminosities, from 0, to infinity and both *)
Theorem C65_lum_integral : forall alpha g G Lstar phistar lower upper, -1 < alpha -> is_incomplete_gamma alpha g G -> 0 < Lstar -> 0 <= lower < upper ->
  (0 < lower -> is_RInt (schechter_lum Lstar alpha phistar) lower upper (schechter_lum_integral g G Lstar alpha phistar lower (Some upper))) /\
  is_RInt_gen (schechter_lum Lstar alpha phistar) (at_right 0) (at_point upper) (schechter_lum_integral g G Lstar alpha phistar 0 (Some upper)) /\
  (0 < lower -> is_RInt_gen (schechter_lum Lstar alpha phistar) (at_point lower) (Rbar_locally p_infty) (schechter_lum_integral g G Lstar alpha phistar lower None)) /\
  is_RInt_gen (schechter_lum Lstar alpha phistar) (at_right 0) (Rbar_locally p_infty) (schechter_lum_integral g G Lstar alpha phistar 0 None).
Proof.
  intros alpha g G Lstar phistar lower upper A I PL B. pose proof I as (D & L0 & LI). unfold schechter_lum_integral, incomplete. destruct (Rle_dec alpha (-1)); [lra|].
  assert (Z : filterlim (fun L => phistar * g (L / Lstar)) (at_right 0) (locally 0)).
  { replace 0 with (phistar * 0) at 2 by ring. eapply filterlim_comp; [|apply (filterlim_scal_r phistar 0)]. eapply filterlim_comp; [|exact L0]. intros P [e H]. assert (E : 0 < e * Lstar). { pose proof (cond_pos e). pos. } exists (mkposreal _ E). intros y Y Y0. apply H; [|pos].
    change (Rabs (y / Lstar - 0) < e). change (Rabs (y - 0) < e * Lstar) in Y. rewrite Rminus_0_r in *. unfold Rdiv. rewrite Rabs_mult, (Rabs_pos_eq (/ Lstar)) by (left; pos). apply Rmult_lt_reg_r with Lstar; trivial. rewrite Rmult_assoc, Rinv_l by lra. lra. }
  assert (T : filterlim (fun L => phistar * g (L / Lstar)) (Rbar_locally p_infty) (locally (phistar * G))).
  { eapply filterlim_comp; [|apply (filterlim_scal_r phistar G)]. eapply filterlim_comp; [|exact LI]. intros P [b H]. exists (b * Lstar). intros y Y. apply H. apply Rmult_lt_reg_r with Lstar; trivial. unfold Rdiv. rewrite Rmult_assoc, Rinv_l by lra. lra. }
  split; [|split; [|split]].
  - intros P. destruct (Req_EM_T lower 0); [lra|]. rewrite Rmult_minus_distr_l. apply (is_RInt_derive (fun L => phistar * g (L / Lstar))); intros x X; rewrite Rmin_left, Rmax_right in X by lra; [apply lum_prim with G; trivial; lra|apply lum_cont; lra].
  - destruct (Req_EM_T 0 0); [|congruence]. apply (gen_law _ (fun L => phistar * g (L / Lstar)) (at_point upper)); trivial; [intros; now apply lum_prim with G|intros; now apply lum_cont|unfold at_point; lra|exact (lim_at_point _ _)].
  - intros P. destruct (Rle_dec lower 0); [lra|]. rewrite Rmult_minus_distr_l.
    assert (F : filter_prod (at_point lower) (Rbar_locally p_infty) (fun ab => 0 < Rmin (fst ab) (snd ab))). { exists (fun a => a = lower) (fun b => 0 < b); [reflexivity|apply infty_pos|]. intros a b -> HB. simpl. now apply Rmin_glb_lt. }
    assert (E : forall r, 0 < r -> Derive (fun L => phistar * g (L / Lstar)) r = schechter_lum Lstar alpha phistar r) by (intros; now apply is_derive_unique, lum_prim with G).
    apply (is_RInt_gen_ext (Derive (fun L => phistar * g (L / Lstar)))). { refine (filter_imp _ _ _ F). intros [a b] Q x Bx; cbn [fst snd] in *. apply E. lra. }
    apply is_RInt_gen_Derive; [| |exact (lim_at_point (fun L => phistar * g (L / Lstar)) lower)|exact T].
    + refine (filter_imp _ _ _ F). intros [a b] Q x Bx; cbn [fst snd] in *. eexists. apply (lum_prim alpha g G); trivial. lra.
    + refine (filter_imp _ _ _ F). intros [a b] Q x Bx; cbn [fst snd] in *. apply (continuous_ext_loc (T:=R_UniformSpace) (U:=R_UniformSpace) _ (schechter_lum Lstar alpha phistar) x); [|apply lum_cont; lra].
      exists (mkposreal x ltac:(lra)). intros y Y. symmetry. apply E. change (Rabs (y - x) < x) in Y. apply Rabs_def2 in Y. lra.
  - destruct (Rle_dec 0 0); [|lra]. apply (gen_law _ (fun L => phistar * g (L / Lstar)) (Rbar_locally p_infty)); trivial; [intros; now apply lum_prim with G|intros; now apply lum_cont|apply infty_pos].
Qed.
(** magnitudes: right between two magnitudes of which the first is not 0 *)
Theorem C65_mag_integral : forall alpha g G Mstar phistar lower upper, -1 < alpha -> is_incomplete_gamma alpha g G -> lower <> 0 -> lower < upper ->
  is_RInt (schechter_mag Mstar alpha phistar) lower upper (schechter_mag_integral g G Mstar alpha phistar lower (Some upper)).
Proof.
  intros alpha g G Mstar phistar lower upper A (D & _) N B. unfold schechter_mag_integral, incomplete. destruct (Rle_dec alpha (-1)); [lra|]. destruct (Req_EM_T lower 0); [contradiction|]. fold (xmag Mstar upper) (xmag Mstar lower).
  replace (- phistar * (g (xmag Mstar upper) - g (xmag Mstar lower))) with (- phistar * g (xmag Mstar upper) - - phistar * g (xmag Mstar lower)) by ring.
  apply (is_RInt_derive (fun M => - phistar * g (xmag Mstar M))); intros M _.
  - pose proof (Rpower_pos 10 (0.4 * (Mstar - M))) as X. fold (xmag Mstar M) in X. evar_last. { apply (is_derive_scal (fun M => g (xmag Mstar M)) M (- phistar)). apply (is_derive_comp g (xmag Mstar)); [apply D; trivial|apply xmag_derive]. }
    unfold scal; simpl; unfold mult; simpl. unfold schechter_mag. fold (xmag Mstar M). rewrite power_split, Rpower_1 by trivial. ring.
  - apply @ex_derive_continuous. eexists. apply C65_mag_derivative_refuted.
Qed.
(** ... wrong, even negative for a positive function, from magnitude 0 and to infinity *)
Theorem C65_mag_integral_refuted : exists g G, is_incomplete_gamma 0 g G /\ (forall M, 0 < schechter_mag 1 0 1 M) /\
  schechter_mag_integral g G 1 0 1 0 (Some 2) < 0 /\ schechter_mag_integral g G 1 0 1 1 None < 0 /\ 0 < schechter_mag_integral g G 1 0 1 1 (Some 2).
Proof.
  exists (fun x => 1 - exp (- x)), 1. pose proof ln10_pos. split; [|split; [|split; [|split]]].
  - split; [|split].
    + intros x X. rewrite Rpower_O by trivial. auto_derive; trivial. ring.
    + apply lim_0 with 1. intros r R. assert (exp (- r) < 1) by (rewrite <- exp_0; apply exp_increasing; lra). assert (- r <> 0) by lra. pose proof (exp_ineq1 (- r) H1). rewrite Rabs_pos_eq; lra.
    + apply lim_inf with 1. intros r R. replace (1 - exp (- r) - 1) with (- exp (- r)) by ring. rewrite Rabs_Ropp, Rabs_pos_eq by (left; apply exp_pos). rewrite exp_Ropp. unfold Rdiv. rewrite Rmult_1_l. apply Rinv_le_contravar; trivial. assert (r <> 0) by lra. pose proof (exp_ineq1 r H0). lra.
  - intros M. unfold schechter_mag. set (x := Rpower 10 _). pose proof (Rpower_pos x (1 + 0)). pose proof (exp_pos (- x)). pos.
  - unfold schechter_mag_integral, incomplete. destruct (Rle_dec 0 (-1)); [lra|]. destruct (Req_EM_T 0 0); [|congruence]. set (u := Rpower 10 _). assert (0 < u) by apply Rpower_pos. assert (exp (- u) < 1) by (rewrite <- exp_0; apply exp_increasing; lra). lra.
  - unfold schechter_mag_integral, incomplete. destruct (Rle_dec 0 (-1)); [lra|]. destruct (Rle_dec 1 0); [lra|]. pose proof (exp_pos (- Rpower 10 (0.4 * (1 - 1)))). lra.
  - unfold schechter_mag_integral, incomplete. destruct (Rle_dec 0 (-1)); [lra|]. destruct (Req_EM_T 1 0); [lra|]. assert (Rpower 10 (0.4 * (1 - 2)) < Rpower 10 (0.4 * (1 - 1))) by (apply Rpower_lt; lra). assert (exp (- Rpower 10 (0.4 * (1 - 1))) < exp (- Rpower 10 (0.4 * (1 - 2)))) by (apply exp_increasing; lra). lra.
Qed.
Example C65_nonvacuous : exists g G, is_incomplete_gamma 0 g G.
Proof. destruct C65_mag_integral_refuted as (g & G & I & _). now exists g, G. Qed.

(** ** C66: Moffat *)
Theorem C66_moffat_fwhm : forall A alpha beta, 0 < alpha -> 0 < beta -> 0 < get_fwhm alpha beta /\ moffat A alpha beta (get_fwhm alpha beta / 2) = moffat A alpha beta 0 / 2 /\
  (forall v, 0 < v -> get_fwhm (set_fwhm beta v) beta = v) /\ set_fwhm beta (get_fwhm alpha beta) = alpha.
Proof.
  intros A alpha beta PA PB. assert (K : 1 < Rpower 2 (1 / beta)). { apply Rle_lt_trans with (Rpower 2 0); [rewrite Rpower_O; lra|]. apply Rpower_lt; [lra|]. pos. } set (k := Rpower 2 (1 / beta) - 1). assert (PK : 0 < k) by (unfold k; lra). pose proof (sqrt_lt_R0 _ PK) as SK.
  assert (S4 : sqrt (4 * k) = 2 * sqrt k). { rewrite sqrt_mult by lra. replace (sqrt 4) with 2; [reflexivity|]. symmetry. replace 4 with (2 * 2) by ring. apply sqrt_square. lra. }
  unfold get_fwhm, set_fwhm. fold k. rewrite S4. split; [pos|split; [|split]].
  - unfold moffat. pose proof (sqrt_sqrt k ltac:(lra)) as SS. replace (alpha * 2 * sqrt k / 2 / alpha * (alpha * 2 * sqrt k / 2 / alpha)) with (sqrt k * sqrt k) by (field; lra). rewrite SS. replace (1 + k) with (Rpower 2 (1 / beta)) by (unfold k; ring).
    rewrite Rpower_mult. replace (1 / beta * - beta) with (Ropp 1) by (field; lra). rewrite Rpower_Ropp, Rpower_1 by lra. replace (1 + 0 / alpha * (0 / alpha)) with 1 by (field; lra). unfold Rpower at 1. rewrite ln_1, Rmult_0_r, exp_0. unfold Rdiv. ring.
  - intros v V. field. lra.
  - field. lra.
Qed.
Theorem C66_moffat_decreases : forall A alpha beta r1 r2, 0 < A -> 0 < alpha -> 1 < beta -> 0 <= r1 < r2 -> 0 < moffat A alpha beta r2 < moffat A alpha beta r1.
Proof.
  intros A alpha beta r1 r2 PA P B R. pose proof PI_RGT_0. unfold moffat. set (q := fun r => r / alpha * (r / alpha)). assert (q r1 < q r2). { unfold q. assert (r1 / alpha < r2 / alpha). { unfold Rdiv. apply Rmult_lt_compat_r; [pos|lra]. } assert (0 <= r1 / alpha). { unfold Rdiv. apply Rmult_le_pos; [lra|left; pos]. } nra. }
  assert (0 <= q r1) by (unfold q; nra). fold (q r1) (q r2). assert (0 < A * (beta - 1) / (PI * alpha ^ 2)) by pos. assert (0 < Rpower (1 + q r2) (- beta)) by apply Rpower_pos. split; [pos|]. apply Rmult_lt_compat_l; trivial.
  unfold Rpower. apply exp_increasing. assert (ln (1 + q r1) < ln (1 + q r2)) by (apply ln_increasing; lra). nra.
Qed.

(** ** Sersic and Einasto *)
Lemma pw_pos b e : 0 < b -> pw b e = Rpower b e.
Proof. intros. unfold pw. destruct (Rlt_dec 0 b); [reflexivity|contradiction]. Qed.
Theorem C66_sersic : forall bn Ae re n, 0 < re ->
  sersic bn Ae re n re = Ae /\ get_A0 bn Ae re n = Ae * exp bn /\ (Ae <> 0 -> forall v, get_A0 bn (set_A0 bn Ae re n v) re n = v).
Proof.
  intros bn Ae re n P. assert (E0 : forall A, sersic bn A re n 0 = A * exp bn). { intros. unfold sersic, pw. replace (0 / re) with 0 by (field; lra). destruct (Rlt_dec 0 0); [lra|]. f_equal. f_equal. ring. }
  split; [|split].
  - unfold sersic. replace (re / re) with 1 by (field; lra). rewrite pw_pos by lra. unfold Rpower. rewrite ln_1, Rmult_0_r, exp_0. replace (- bn * (1 - 1)) with 0 by ring. rewrite exp_0. ring.
  - apply E0.
  - intros N v. unfold get_A0, set_A0. rewrite !E0. pose proof (exp_pos bn). field. lra.
Qed.
Theorem C66_sersic_decreases : forall bn Ae re n r1 r2, 0 < bn -> 0 < Ae -> 0 < re -> 0 < n -> 0 <= r1 < r2 -> 0 < sersic bn Ae re n r2 < sersic bn Ae re n r1.
Proof.
  intros bn Ae re n r1 r2 PB PA PR PN R. unfold sersic. split; [apply Rmult_lt_0_compat; [trivial|apply exp_pos]|]. apply Rmult_lt_compat_l; trivial. apply exp_increasing. assert (0 < r2 / re) by pos. rewrite (pw_pos (r2 / re)) by trivial.
  assert (pw (r1 / re) (1 / n) < Rpower (r2 / re) (1 / n)); [|nra]. unfold pw. destruct (Rlt_dec 0 (r1 / re)); [|apply Rpower_pos]. unfold Rpower. apply exp_increasing. assert (0 < 1 / n) by pos. apply Rmult_lt_compat_l; trivial. apply ln_increasing; trivial. unfold Rdiv. apply Rmult_lt_compat_r; [pos|lra].
Qed.
(** the function of a model with the index [own], called with another index, is the profile of neither *)
Theorem C66_sersic_index_refuted : exists bnf own n r, (forall x y, 0 < x < y -> bnf x < bnf y) /\ 0 < own /\ 0 < n /\ 0 < r /\ sersic_f bnf own 1 1 n r <> sersic (bnf n) 1 1 n r /\ sersic_f bnf own 1 1 n r <> sersic (bnf own) 1 1 own r.
Proof.
  exists (fun x => x), 1, 2, 4. split; [intros; lra|]. do 3 (split; [lra|]). split; unfold sersic_f, sersic; rewrite !pw_pos by lra; replace (4 / 1) with 4 by field; intros E; apply Rmult_eq_reg_l in E; [|lra| |lra]; apply exp_inv in E.
  - assert (Rpower 4 (1 / 2) = 2). { replace (1 / 2) with (/ 2) by lra. rewrite Rpower_sqrt by lra. replace 4 with (2 * 2) by ring. apply sqrt_square. lra. } lra.
  - assert (Rpower 4 (1 / 2) < Rpower 4 (1 / 1)) by (apply Rpower_lt; lra). lra.
Qed.
Theorem C66_einasto_sersic : forall A rs alpha r, alpha <> 0 -> einasto A rs alpha r = sersic (2 / alpha) A rs (1 / alpha) r.
Proof. intros. unfold einasto, sersic. replace (1 / (1 / alpha)) with alpha by (field; trivial). f_equal. f_equal. field. trivial. Qed.
(** A is the density at rs, where the logarithmic slope is -2 *)
Theorem C66_einasto_slope : forall A rs alpha r, 0 < A -> 0 < rs -> 0 < alpha -> 0 < r -> einasto A rs alpha rs = A /\ exists d, is_derive (einasto A rs alpha) r d /\ r * d / einasto A rs alpha r = - 2 * Rpower (r / rs) alpha /\ (r = rs -> r * d / einasto A rs alpha r = Ropp 2).
Proof.
  intros A rs alpha r PA PR PL P. assert (X : 0 < r / rs) by pos. split. { unfold einasto. replace (rs / rs) with 1 by (field; lra). rewrite pw_pos by lra. unfold Rpower. rewrite ln_1, Rmult_0_r, exp_0. replace (-2 / alpha * (1 - 1)) with 0 by (field; lra). rewrite exp_0. ring. }
  exists (- 2 * Rpower (r / rs) alpha / r * einasto A rs alpha r). assert (PE : 0 < einasto A rs alpha r). { unfold einasto. apply Rmult_lt_0_compat; trivial. apply exp_pos. }
  assert (E : r * (- 2 * Rpower (r / rs) alpha / r * einasto A rs alpha r) / einasto A rs alpha r = - 2 * Rpower (r / rs) alpha) by (field; lra).
  split; [|split; [exact E|intros ->; rewrite E; replace (rs / rs) with 1 by (field; lra); unfold Rpower; rewrite ln_1, Rmult_0_r, exp_0; ring]].
  apply (is_derive_ext_loc (fun r => A * exp (- 2 / alpha * (Rpower (r / rs) alpha - 1)))).
  { exists (mkposreal r P). intros y Y. change (Rabs (y - r) < r) in Y. apply Rabs_def2 in Y. unfold einasto. rewrite pw_pos; trivial. assert (0 < y) by lra. pos. }
  unfold einasto. rewrite pw_pos by trivial. unfold Rpower. auto_derive; [exact X|]. replace (r * / rs) with (r / rs) by reflexivity. set (E1 := exp (alpha * _)). change (E1 - 1) with (E1 + - (1)). set (F := exp (-2 / alpha * _)). clearbody F E1. field. repeat split; lra.
Qed.
(** the class-wide cache of b_n *)
Inductive bn_op := AskBn (n : R) | SetExact (v : option bool).
Definition bn_step (exact estimate : R -> R) (s : bncache) (o : bn_op) : bncache := match o with AskBn n => fst (getBn exact estimate n s) | SetExact v => fst (exactBn v s) end.
Fixpoint last_mode (b : bool) (l : list bn_op) : bool := match l with [] => b | SetExact (Some v) :: l => last_mode v l | _ :: l => last_mode b l end.
Lemma find_in exact estimate md t n b : List.Forall (fun p => snd p = if md : bool then exact (fst p) else estimate (fst p)) t -> find_bn n t = Some b -> b = if md then exact n else estimate n.
Proof. induction t as [|[m v] t IH]; simpl; intros F E; [discriminate|]. inversion F; subst. simpl in *. destruct (Req_EM_T m n) as [->|]; [congruence|]. now apply IH. Qed.
(** after any history, for any models and settings, getBn returns the value of the current setting *)
Theorem C66_bn_cache : forall exact estimate ops n, let s := fold_left (bn_step exact estimate) ops (Cache true []) in
  snd (getBn exact estimate n s) = (if last_mode true ops then exact n else estimate n) /\ snd (exactBn None s) = last_mode true ops.
Proof.
  intros exact estimate ops n s. 
  assert (K : forall ops s0, List.Forall (fun p => snd p = if mode s0 then exact (fst p) else estimate (fst p)) (table s0) -> let s := fold_left (bn_step exact estimate) ops s0 in mode s = last_mode (mode s0) ops /\ List.Forall (fun p => snd p = if mode s then exact (fst p) else estimate (fst p)) (table s)).
  { clear. induction ops as [|o ops IH]; intros s0 F; [now split|]. simpl. destruct o as [n|[v|]]; simpl.
    - assert (M : mode (fst (getBn exact estimate n s0)) = mode s0) by (unfold getBn; destruct (find_bn n (table s0)); reflexivity). rewrite <- M. apply IH. rewrite M. unfold getBn. destruct (find_bn n (table s0)); trivial. simpl. now constructor.
    - apply (IH (Cache v [])). constructor.
    - now apply IH. }
  destruct (K ops (Cache true [])) as [M F]; [constructor|]. fold s in M, F. simpl in M. split; [|exact M]. rewrite <- M. unfold getBn. destruct (find_bn n (table s)) as [b|] eqn:E; [|reflexivity]. simpl. now apply (find_in _ _ _ _ _ _ F).
Qed.
Example C66_bn_nonvacuous : forall e f : R -> R, snd (getBn e f 4 (fold_left (bn_step e f) [AskBn 4; SetExact (Some false); AskBn 4; SetExact None] (Cache true []))) = f 4.
Proof. intros e f. destruct (C66_bn_cache e f [AskBn 4; SetExact (Some false); AskBn 4; SetExact None] 4) as [E _]. exact E. Qed.

(** ** King *)
Theorem C66_king2d : forall rc rt A, 0 < rc -> 0 < rt -> 0 < A -> king2d rc rt A rt = 0 /\ (forall r1 r2, 0 <= r1 < r2 -> r2 <= rt -> king2d rc rt A r2 < king2d rc rt A r1) /\ (forall r, rt < r -> 0 < king2d rc rt A r).
Proof.
  intros rc rt A PC PT PA. 
  assert (D : forall a b, 0 <= a < b -> / sqrt (b * b + rc ^ 2) < / sqrt (a * a + rc ^ 2)). { intros a b B. assert (0 < a * a + rc ^ 2) by nra. assert (0 < sqrt (a * a + rc ^ 2)) by (now apply sqrt_lt_R0). assert (sqrt (a * a + rc ^ 2) < sqrt (b * b + rc ^ 2)) by (apply sqrt_lt_1; nra). apply Rinv_lt_contravar; [nra|trivial]. }
  assert (PK : 0 < A * rc ^ 2) by pos. split; [|split].
  - unfold king2d. rewrite Rminus_eq_0. ring.
  - intros r1 r2 R L. unfold king2d. pose proof (D r1 r2 R). assert (/ sqrt (rt * rt + rc ^ 2) <= / sqrt (r2 * r2 + rc ^ 2)). { destruct L as [L|L]; [left; apply D; lra|subst; lra]. } apply Rmult_lt_compat_l; trivial. set (a := / sqrt (r1 * r1 + rc ^ 2)) in *. set (b := / sqrt (r2 * r2 + rc ^ 2)) in *. set (t := / sqrt (rt * rt + rc ^ 2)) in *. clearbody a b t. nra.
  - intros r L. unfold king2d. pose proof (D rt r ltac:(lra)). apply Rmult_lt_0_compat; trivial. set (a := / sqrt (r * r + rc ^ 2)) in *. set (t := / sqrt (rt * rt + rc ^ 2)) in *. clearbody a t. nra.
Qed.
Theorem C66_king3d : forall rc rt A r, 0 < rc -> 0 < rt -> 0 < A -> 0 <= r -> (rt <= r -> king3d rc rt A r = 0) /\ (r < rt -> 0 < king3d rc rt A r).
Proof.
  intros rc rt A r PC PT PA PR. pose proof PI_RGT_0. unfold king3d. split; intros L; destruct (Rle_dec rt r); try lra.
  assert (Q : 0 < r * r + rc ^ 2 < rt * rt + rc ^ 2) by nra. pose proof (sqrt_lt_R0 _ (proj1 Q)) as S1. assert (S2 : sqrt (r * r + rc ^ 2) < sqrt (rt * rt + rc ^ 2)) by (apply sqrt_lt_1; lra). set (a := sqrt (r * r + rc ^ 2)) in *. set (b := sqrt (rt * rt + rc ^ 2)) in *. clearbody a b.
  set (z := a * / b). assert (Z : 0 < z < 1). { unfold z. assert (0 < / b) by pos. split; [pos|]. apply Rmult_lt_reg_r with b; [lra|]. rewrite Rmult_assoc, Rinv_l by lra. lra. } clearbody z.
  assert (T : sqrt (1 - z * z) < acos z / z).
  { assert (0 < acos z) by (apply acos_bound_lt; lra).
    assert (SN : sin (acos z) = sqrt (1 - z * z)). { rewrite sin_acos by lra. reflexivity. } assert (SL : sin (acos z) < acos z) by (apply sin_lt_x; lra). rewrite SN in SL. apply Rlt_trans with (1 := SL). rewrite <- (Rmult_1_r (acos z)) at 1. unfold Rdiv. apply Rmult_lt_compat_l; [lra|]. rewrite <- Rinv_1 at 1. apply Rinv_lt_contravar; lra. }
  set (k := Rpower _ _). assert (0 < k) by apply Rpower_pos. assert (0 < acos z / z - sqrt (1 - z * z)) by lra. set (y := acos z / z - sqrt (1 - z * z)) in *. clearbody y. pos.
Qed.

(** ** disks: the position angle turns the profile counter-clockwise *)
Definition turn (pa : R) (p : R * R) : R * R := (cos pa * fst p - sin pa * snd p, sin pa * fst p + cos pa * snd p).
Theorem C66_exp_disk : forall A l h pa s z, (let q := turn pa (s, z) in exp_disk A l h pa (fst q) (snd q)) = A * exp (- Rabs (s / l)) * exp (- Rabs (z / h)).
Proof.
  intros. unfold turn. cbn [fst snd]. unfold exp_disk. pose proof (sin2_cos2 pa) as T. unfold Rsqr in T.
  replace (cos pa * (cos pa * s - sin pa * z) + sin pa * (sin pa * s + cos pa * z)) with (s * (sin pa * sin pa + cos pa * cos pa)) by ring.
  replace (- sin pa * (cos pa * s - sin pa * z) + cos pa * (sin pa * s + cos pa * z)) with (z * (sin pa * sin pa + cos pa * cos pa)) by ring.
  rewrite T, !Rmult_1_r. unfold Rminus. rewrite exp_plus. ring.
Qed.
Theorem C66_sech_disk : forall A l h pa s z, (let q := turn pa (s, z) in sech_disk A l h pa (fst q) (snd q)) = A * exp (- Rabs (s / l)) / cosh (z / h) ^ 2.
Proof.
  intros. unfold turn. cbn [fst snd]. unfold sech_disk. destruct (Req_EM_T pa 0) as [->|N].
  - rewrite cos_0, sin_0. replace (1 * s - 0 * z) with s by ring. replace (0 * s + 1 * z) with z by ring. reflexivity.
  - pose proof (sin2_cos2 pa) as T. unfold Rsqr in T.
    replace (cos pa * (cos pa * s - sin pa * z) + sin pa * (sin pa * s + cos pa * z)) with (s * (sin pa * sin pa + cos pa * cos pa)) by ring.
    replace (- sin pa * (cos pa * s - sin pa * z) + cos pa * (sin pa * s + cos pa * z)) with (z * (sin pa * sin pa + cos pa * cos pa)) by ring.
    rewrite T, !Rmult_1_r. reflexivity.
Qed.

(** ** Burkert (C62): rho0 is the central density; the mass within a radius *)
Theorem C62_burkert : forall p r0 r, 0 < r0 -> 0 < r -> burkert p r0 0 = p /\ mass_within (burkert p r0) r (2 * PI * p * r0 ^ 3 * (ln (1 + r / r0) + ln (1 + (r / r0) ^ 2) / 2 - atan (r / r0))).
Proof.
  intros p r0 r P R. pose proof PI_RGT_0. split. { unfold burkert. field. lra. }
  set (M := fun r => 2 * PI * p * r0 ^ 3 * (ln (1 + r / r0) + ln (1 + (r / r0) ^ 2) / 2 - atan (r / r0))).
  assert (D : forall r, 0 <= r -> is_derive M r (4 * PI * r ^ 2 * burkert p r0 r)).
  { intros s S0. assert (0 <= s / r0). { unfold Rdiv. apply Rmult_le_pos; [trivial|left; pos]. } assert (0 < 1 + (s / r0) ^ 2) by nra. unfold M, burkert. auto_derive. { unfold Rdiv in *. simpl in *. repeat split; lra. } unfold Rsqr. field. repeat split; try lra; nra. }
  unfold mass_within. apply (gen_law _ M (at_point r)); trivial.
  - intros; apply D; lra.
  - intros s S0. apply @ex_derive_continuous. unfold burkert. auto_derive. apply Rgt_not_eq. assert (0 < s * (s * 1) + r0 * (r0 * 1)) by nra. pos.
  - assert (C : continuous M 0). { apply (ex_derive_continuous M). eexists. apply D. lra. } intros Q HQ. replace 0 with (M 0) in HQ at 1. 2:{ unfold M. replace (0 / r0) with 0 by (field; lra). replace (1 + 0 ^ 2) with 1 by ring. replace (1 + 0) with 1 by ring. rewrite ln_1, atan_0. lra. }
    specialize (C Q HQ). destruct C as [e HE]. exists e. intros; now apply HE.
  - exact (lim_at_point M r).
Qed.
