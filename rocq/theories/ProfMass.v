(** * ProfMass: masses enclosed by the profiles of models.py (C62) *)
From Coq Require Import List Bool Reals Lra Lia Psatz.
From Coquelicot Require Import Coquelicot.
From Verif Require Import PyBase SpecModel ProfModel ProfBlackbody.
Open Scope R_scope.

(** ** what a mass law is *)
(** the mass inside the radius [r] of a body with the density [rho]: the integral over the shells, from 0 *)
Definition mass_within (rho : R -> R) (r m : R) : Prop := is_RInt_gen (fun s => 4 * PI * s ^ 2 * rho s) (at_right 0) (at_point r) m.
Definition total_mass (rho : R -> R) (m : R) : Prop := is_RInt_gen (fun s => 4 * PI * s ^ 2 * rho s) (at_right 0) (Rbar_locally p_infty) m.
(** and the same over the rings of a surface density *)
Definition light_within (sigma : R -> R) (r m : R) : Prop := is_RInt_gen (fun s => 2 * PI * s * sigma s) (at_right 0) (at_point r) m.
Definition total_light (sigma : R -> R) (m : R) : Prop := is_RInt_gen (fun s => 2 * PI * s * sigma s) (at_right 0) (Rbar_locally p_infty) m.

Lemma gen_law (w M : R -> R) (Fb : (R -> Prop) -> Prop) {FF : Filter Fb} (lb : R) :
  (forall r, 0 < r -> is_derive M r (w r)) -> (forall r, 0 < r -> continuous w r) -> filterlim M (at_right 0) (locally 0) ->
  Fb (fun r => 0 < r) -> filterlim M Fb (locally lb) -> is_RInt_gen w (at_right 0) Fb lb.
Proof.
  intros D C L0 PB LB. replace lb with (lb - 0) by lra.
  assert (P0 : at_right 0 (fun r => 0 < r)). { exists (mkposreal 1 Rlt_0_1). intros; trivial. }
  assert (P : filter_prod (at_right 0) Fb (fun ab => 0 < Rmin (fst ab) (snd ab))). { exists (fun r => 0 < r) (fun r => 0 < r); trivial. intros a b A B. simpl. now apply Rmin_glb_lt. }
  assert (E : forall r, 0 < r -> Derive M r = w r) by (intros; now apply is_derive_unique, D).
  apply (is_RInt_gen_ext (Derive M)).
  { refine (filter_imp _ _ _ P). intros ab Q x B. apply E. lra. }
  apply is_RInt_gen_Derive; trivial.
  - refine (filter_imp _ _ _ P). intros ab Q x B. eexists. apply D. lra.
  - refine (filter_imp _ _ _ P). intros ab Q x B. apply (continuous_ext_loc (T:=R_UniformSpace) (U:=R_UniformSpace) (Derive M) w x); [|apply C; lra].
    exists (mkposreal x ltac:(lra)). intros y Y. symmetry. apply E. unfold ball in Y; simpl in Y; unfold AbsRing_ball, abs, minus, plus, opp in Y; simpl in Y. apply Rabs_def2 in Y. lra.
Qed.
Lemma at_point_pos r : 0 < r -> at_point r (fun x => 0 < x).
Proof. intros P. exact P. Qed.
Lemma lim_at_point (M : R -> R) r : filterlim M (at_point r) (locally (M r)).
Proof. intros P [e Q]. unfold filtermap, at_point. apply Q. apply ball_center. Qed.
Lemma infty_pos : Rbar_locally p_infty (fun x => 0 < x).
Proof. exists 0. trivial. Qed.
(** limits by comparison *)
Lemma lim_0 (M : R -> R) K : (forall r, 0 < r -> Rabs (M r) <= K * r) -> filterlim M (at_right 0) (locally 0).
Proof.
  intros B. assert (K0 : 0 <= K). { specialize (B 1 Rlt_0_1). pose proof (Rabs_pos (M 1)). lra. }
  intros P [e Q]. assert (D : 0 < e / (K + 1)). { apply Rdiv_lt_0_compat; [apply e|lra]. } exists (mkposreal _ D). intros y Y Y0. apply Q.
  unfold ball in *; simpl in *; unfold AbsRing_ball, abs, minus, plus, opp in *; simpl in *. replace (M y + - 0) with (M y) by lra. replace (y + - 0) with y in Y by lra.
  rewrite Rabs_pos_eq in Y by lra. apply Rle_lt_trans with (1 := B y Y0). assert (y * (K + 1) < e); [|nra].
  replace (pos e) with (e / (K + 1) * (K + 1)) by (field; lra). apply Rmult_lt_compat_r; lra.
Qed.
Lemma lim_inf (M : R -> R) l K : (forall r, 0 < r -> Rabs (M r - l) <= K / r) -> filterlim M (Rbar_locally p_infty) (locally l).
Proof.
  intros B. intros P [e Q]. exists (Rmax 0 (K / e)). intros y Y. assert (0 < y) by (pose proof (Rmax_l 0 (K / e)); lra). assert (K / e < y) by (pose proof (Rmax_r 0 (K / e)); lra). apply Q.
  unfold ball; simpl; unfold AbsRing_ball, abs, minus, plus, opp; simpl. apply Rle_lt_trans with (1 := B y H). pose proof (cond_pos e).
  apply Rmult_lt_reg_r with y; trivial. replace (K / y * y) with K by (field; lra). replace K with (K / e * e) by (field; lra). nra.
Qed.

(** ** Hernquist *)
Definition hernquist_mass (A r0 r : R) : R := A * (r / (r + r0)) ^ 2.
Lemma hernquist_derive A r0 r : 0 < r0 -> 0 < r -> is_derive (hernquist_mass A r0) r (4 * PI * r ^ 2 * hernquist A r0 r).
Proof. intros. pose proof PI_RGT_0. unfold hernquist_mass, hernquist. auto_derive; [lra|]. field. repeat split; lra. Qed.
Lemma hernquist_cont A r0 r : 0 < r0 -> 0 < r -> continuous (fun s => 4 * PI * s ^ 2 * hernquist A r0 s) r.
Proof. intros. apply @ex_derive_continuous. unfold hernquist. auto_derive. repeat split; try lra. apply Rgt_not_eq. pos. Qed.
Lemma frac_bounds r r0 : 0 < r0 -> 0 < r -> 0 < r / (r + r0) < 1 /\ r / (r + r0) <= r / r0 /\ 1 - r / (r + r0) <= r0 / r.
Proof.
  intros. assert (0 < r / (r + r0)) by pos. assert (E : 1 - r / (r + r0) = r0 / (r + r0)) by (field; lra). assert (0 < r0 / (r + r0)) by pos.
  assert (r / (r + r0) <= r / r0). { unfold Rdiv. apply Rmult_le_compat_l; [lra|]. apply Rinv_le_contravar; lra. }
  assert (r0 / (r + r0) <= r0 / r). { unfold Rdiv. apply Rmult_le_compat_l; [lra|]. apply Rinv_le_contravar; lra. } lra.
Qed.
Theorem C62_hernquist : forall A r0, 0 < r0 ->
  (forall r, 0 < r -> mass_within (hernquist A r0) r (A * (r / (r + r0)) ^ 2)) /\ total_mass (hernquist A r0) A /\ mass_within (hernquist A r0) (r0 / (sqrt 2 - 1)) (A / 2).
Proof.
  intros A r0 P.
  assert (L0 : filterlim (hernquist_mass A r0) (at_right 0) (locally 0)).
  { apply lim_0 with (Rabs A / r0). intros r R. destruct (frac_bounds r r0 P R) as (B & U & _). unfold hernquist_mass. rewrite Rabs_mult. rewrite (Rabs_pos_eq (_ ^ 2)) by nra.
    replace (Rabs A / r0 * r) with (Rabs A * (r / r0)) by (field; lra). apply Rmult_le_compat_l; [apply Rabs_pos|nra]. }
  assert (W : forall r, 0 < r -> mass_within (hernquist A r0) r (A * (r / (r + r0)) ^ 2)).
  { intros r R. unfold mass_within. apply (gen_law _ (hernquist_mass A r0) (at_point r)); trivial; [intros; now apply hernquist_derive|intros; now apply hernquist_cont|exact (lim_at_point _ _)]. }
  split; [exact W|split].
  - unfold total_mass. apply (gen_law _ (hernquist_mass A r0) (Rbar_locally p_infty)); trivial; [intros; now apply hernquist_derive|intros; now apply hernquist_cont|apply infty_pos|].
    apply lim_inf with (2 * Rabs A * r0). intros r R. destruct (frac_bounds r r0 P R) as (B & _ & U). unfold hernquist_mass. set (u := r / (r + r0)) in *. 
    replace (A * u ^ 2 - A) with (- (A * (1 - u ^ 2))) by ring. rewrite Rabs_Ropp, Rabs_mult, (Rabs_pos_eq (1 - u ^ 2)) by nra. replace (2 * Rabs A * r0 / r) with (Rabs A * (2 * (r0 / r))) by (field; lra). apply Rmult_le_compat_l; [apply Rabs_pos|nra].
  - assert (S2 : 1 < sqrt 2). { rewrite <- sqrt_1. apply sqrt_lt_1; lra. } pose proof (sqrt_sqrt 2 ltac:(lra)) as S22.
    assert (R : 0 < r0 / (sqrt 2 - 1)) by pos. specialize (W _ R). replace (A / 2) with (A * (r0 / (sqrt 2 - 1) / (r0 / (sqrt 2 - 1) + r0)) ^ 2); trivial.
    replace (r0 / (sqrt 2 - 1) / (r0 / (sqrt 2 - 1) + r0)) with (/ sqrt 2). 2:{ field. repeat split; try lra. apply Rgt_not_eq. nra. }
    replace ((/ sqrt 2) ^ 2) with (/ (sqrt 2 * sqrt 2)) by (field; lra). rewrite S22. lra.
Qed.

(** ** Jaffe *)
Definition jaffe_mass (A rj r : R) : R := A * (r / (r + rj)).
Lemma jaffe_derive A rj r : 0 < rj -> 0 < r -> is_derive (jaffe_mass A rj) r (4 * PI * r ^ 2 * jaffe A rj r).
Proof. intros. pose proof PI_RGT_0. unfold jaffe_mass, jaffe. auto_derive; [lra|]. field. repeat split; lra. Qed.
Lemma jaffe_cont A rj r : 0 < rj -> 0 < r -> continuous (fun s => 4 * PI * s ^ 2 * jaffe A rj s) r.
Proof. intros. apply @ex_derive_continuous. unfold jaffe. auto_derive. assert (0 < r * r) by nra. assert (0 < (r + rj) * (r + rj)) by nra. repeat split; apply Rgt_not_eq; lra. Qed.
Theorem C62_jaffe : forall A rj, 0 < rj ->
  (forall r, 0 < r -> mass_within (jaffe A rj) r (A * (r / (r + rj)))) /\ total_mass (jaffe A rj) A /\ mass_within (jaffe A rj) rj (A / 2).
Proof.
  intros A rj P.
  assert (L0 : filterlim (jaffe_mass A rj) (at_right 0) (locally 0)).
  { apply lim_0 with (Rabs A / rj). intros r R. destruct (frac_bounds r rj P R) as (B & U & _). unfold jaffe_mass. rewrite Rabs_mult. rewrite (Rabs_pos_eq (_ / _)) by lra.
    replace (Rabs A / rj * r) with (Rabs A * (r / rj)) by (field; lra). apply Rmult_le_compat_l; [apply Rabs_pos|lra]. }
  assert (W : forall r, 0 < r -> mass_within (jaffe A rj) r (A * (r / (r + rj)))).
  { intros r R. unfold mass_within. apply (gen_law _ (jaffe_mass A rj) (at_point r)); trivial; [intros; now apply jaffe_derive|intros; now apply jaffe_cont|exact (lim_at_point _ _)]. }
  split; [exact W|split].
  - unfold total_mass. apply (gen_law _ (jaffe_mass A rj) (Rbar_locally p_infty)); trivial; [intros; now apply jaffe_derive|intros; now apply jaffe_cont|apply infty_pos|].
    apply lim_inf with (Rabs A * rj). intros r R. destruct (frac_bounds r rj P R) as (B & _ & U). unfold jaffe_mass. set (u := r / (r + rj)) in *. 
    replace (A * u - A) with (- (A * (1 - u))) by ring. rewrite Rabs_Ropp, Rabs_mult, (Rabs_pos_eq (1 - u)) by lra. replace (Rabs A * rj / r) with (Rabs A * (rj / r)) by (field; lra). apply Rmult_le_compat_l; [apply Rabs_pos|lra].
  - replace (A / 2) with (A * (rj / (rj + rj))) by (field; lra). now apply W.
Qed.

(** ** Plummer *)
Definition plummer_mass (rp M r : R) : R := M * (r / sqrt (r ^ 2 + rp ^ 2)) ^ 3.
Lemma plummer_root rp M r : 0 < rp -> plummer rp M r = 3 * M / (4 * PI) * rp ^ 2 / sqrt (r ^ 2 + rp ^ 2) ^ 5.
Proof.
  intros P. pose proof PI_RGT_0. unfold plummer. assert (Q : 0 < r ^ 2 + rp ^ 2) by nra. pose proof (sqrt_lt_R0 _ Q) as S0.
  assert (E : 1 + (r / rp) ^ 2 = (sqrt (r ^ 2 + rp ^ 2) / rp) ^ 2). { replace ((sqrt (r ^ 2 + rp ^ 2) / rp) ^ 2) with (sqrt (r ^ 2 + rp ^ 2) * sqrt (r ^ 2 + rp ^ 2) / rp ^ 2) by (field; lra). rewrite sqrt_sqrt by lra. field. lra. }
  rewrite E. set (s := sqrt _) in *. assert (0 < s / rp) by pos. rewrite <- (Rpower_pow 2) by trivial. rewrite Rpower_mult.
  replace (INR 2 * (- 5 / 2)) with (- INR 5) by (simpl; lra). rewrite Rpower_Ropp, Rpower_pow by trivial. field. repeat split; lra.
Qed.
Lemma plummer_derive rp M r : 0 < rp -> 0 < r -> is_derive (plummer_mass rp M) r (4 * PI * r ^ 2 * plummer rp M r).
Proof.
  intros P R. pose proof PI_RGT_0. rewrite plummer_root by trivial. unfold plummer_mass. assert (Q : 0 < r ^ 2 + rp ^ 2) by nra. pose proof (sqrt_lt_R0 _ Q) as S0.
  assert (S2 : sqrt (r ^ 2 + rp ^ 2) ^ 2 = r ^ 2 + rp ^ 2). { rewrite <- Rsqr_pow2. apply Rsqr_sqrt. lra. }
  auto_derive. { split; [exact Q|split; [apply Rgt_not_eq; exact S0|trivial]]. }
  replace (r * (r * 1)) with (r ^ 2) by ring. replace (rp * (rp * 1)) with (rp ^ 2) by ring. set (s := sqrt (r ^ 2 + rp ^ 2)) in *. clearbody s.
  assert (E : rp ^ 2 = s ^ 2 - r ^ 2) by lra. rewrite E. field. repeat split; lra.
Qed.
Lemma plummer_cont rp M r : 0 < rp -> 0 < r -> continuous (fun s => 4 * PI * s ^ 2 * plummer rp M s) r.
Proof.
  intros. apply (continuous_ext (fun s => 4 * PI * s ^ 2 * (3 * M / (4 * PI) * rp ^ 2 / sqrt (s ^ 2 + rp ^ 2) ^ 5))). { intros; now rewrite plummer_root. }
  apply @ex_derive_continuous. auto_derive. assert (Q : 0 < r ^ 2 + rp ^ 2) by nra. split; [exact Q|split; [|trivial]]. apply Rgt_not_eq, (pow_lt _ 5), sqrt_lt_R0, Q.
Qed.
Lemma plummer_frac r rp : 0 < rp -> 0 < r -> let u := r / sqrt (r ^ 2 + rp ^ 2) in 0 < u < 1 /\ u <= r / rp /\ 1 - u <= rp / r.
Proof.
  intros P R u. subst u. assert (Q : 0 < r ^ 2 + rp ^ 2) by nra. pose proof (sqrt_lt_R0 _ Q) as S0. pose proof (sqrt_sqrt _ (Rlt_le _ _ Q)) as S2. set (s := sqrt _) in *. clearbody s.
  assert (r < s) by nra. assert (rp < s) by nra. assert (s < r + rp) by nra. assert (0 < r / s) by pos.
  assert (E : 1 - r / s = (s - r) / s) by (field; lra). assert (0 < (s - r) / s) by pos.
  assert (r / s <= r / rp). { unfold Rdiv. apply Rmult_le_compat_l; [lra|]. apply Rinv_le_contravar; lra. }
  assert ((s - r) / s <= rp / r). { unfold Rdiv. apply Rmult_le_compat; try lra. left. pos. apply Rinv_le_contravar; lra. } lra.
Qed.
Theorem C62_plummer : forall rp M, 0 < rp ->
  (forall r, 0 < r -> mass_within (plummer rp M) r (M * (r / sqrt (r ^ 2 + rp ^ 2)) ^ 3)) /\ total_mass (plummer rp M) M.
Proof.
  intros rp M P.
  assert (L0 : filterlim (plummer_mass rp M) (at_right 0) (locally 0)).
  { apply lim_0 with (Rabs M / rp). intros r R. pose proof (plummer_frac r rp P R) as (B & U & _). unfold plummer_mass. set (u := r / sqrt _) in *. clearbody u. rewrite Rabs_mult. rewrite (Rabs_pos_eq (_ ^ 3)) by (left; now apply pow_lt).
    replace (Rabs M / rp * r) with (Rabs M * (r / rp)) by (field; lra). apply Rmult_le_compat_l; [apply Rabs_pos|]. apply Rle_trans with u; [|lra]. assert (0 < u * u < 1) by nra. simpl. nra. }
  assert (W : forall r, 0 < r -> mass_within (plummer rp M) r (M * (r / sqrt (r ^ 2 + rp ^ 2)) ^ 3)).
  { intros r R. unfold mass_within. apply (gen_law _ (plummer_mass rp M) (at_point r)); trivial; [intros; now apply plummer_derive|intros; now apply plummer_cont|exact (lim_at_point _ _)]. }
  split; [exact W|].
  unfold total_mass. apply (gen_law _ (plummer_mass rp M) (Rbar_locally p_infty)); trivial; [intros; now apply plummer_derive|intros; now apply plummer_cont|apply infty_pos|].
  apply lim_inf with (3 * Rabs M * rp). intros r R. pose proof (plummer_frac r rp P R) as (B & _ & U). unfold plummer_mass. set (u := r / sqrt _) in *. clearbody u.
  replace (M * u ^ 3 - M) with (- (M * (1 - u ^ 3))) by ring. assert (0 <= 1 - u ^ 3 <= 3 * (1 - u)). { replace (1 - u ^ 3) with ((1 - u) * (1 + u + u * u)) by ring. assert (0 < u * u < 1) by nra. assert (0 <= (1 - u) * (1 + u + u * u)) by (apply Rmult_le_pos; lra). assert (0 <= (1 - u) * (3 - (1 + u + u * u))) by (apply Rmult_le_pos; lra). lra. }
  rewrite Rabs_Ropp, Rabs_mult, (Rabs_pos_eq (1 - u ^ 3)) by lra. replace (3 * Rabs M * rp / r) with (Rabs M * (3 * (rp / r))) by (field; lra). apply Rmult_le_compat_l; [apply Rabs_pos|lra].
Qed.

(** ** Moffat: a surface brightness *)
Definition moffat_light (A alpha beta r : R) : R := A * (1 - Rpower (1 + (r / alpha) ^ 2) (1 - beta)).
Lemma moffat_derive A alpha beta r : 0 < alpha -> is_derive (moffat_light A alpha beta) r (2 * PI * r * moffat A alpha beta r).
Proof.
  intros P. pose proof PI_RGT_0. unfold moffat_light, moffat. assert (Q : 0 < 1 + (r / alpha) ^ 2) by nra. replace (1 + r / alpha * (r / alpha)) with (1 + (r / alpha) ^ 2) by ring.
  replace (- beta) with ((1 - beta) + - (1)) by ring. rewrite Rpower_plus, Rpower_Ropp, Rpower_1 by trivial. unfold Rpower. auto_derive. { simpl in Q. unfold Rdiv in Q. simpl. lra. }
  replace (1 + r * / alpha * (r * / alpha * 1)) with (1 + (r / alpha) ^ 2) by (unfold Rdiv; ring). set (E := exp _). clearbody E. field. repeat split; try lra. nra.
Qed.
Lemma moffat_cont A alpha beta r : 0 < alpha -> continuous (fun s => 2 * PI * s * moffat A alpha beta s) r.
Proof.
  intros. pose proof PI_RGT_0. apply @ex_derive_continuous. unfold moffat, Rpower. auto_derive. repeat split; trivial. assert (0 < 1 + (r / alpha) ^ 2) by nra. simpl in H1. unfold Rdiv in *. lra.
Qed.
Theorem C62_moffat : forall A alpha beta, 0 < alpha -> 1 < beta ->
  (forall r, 0 < r -> light_within (moffat A alpha beta) r (A * (1 - Rpower (1 + (r / alpha) ^ 2) (1 - beta)))) /\ total_light (moffat A alpha beta) A.
Proof.
  intros A alpha beta P B.
  assert (L0 : filterlim (moffat_light A alpha beta) (at_right 0) (locally 0)).
  { replace 0 with (moffat_light A alpha beta 0) at 2. 2:{ unfold moffat_light. replace (1 + (0 / alpha) ^ 2) with 1 by (field; lra). unfold Rpower. rewrite ln_1, Rmult_0_r, exp_0. ring. }
    assert (C : continuous (moffat_light A alpha beta) 0). { apply (ex_derive_continuous (moffat_light A alpha beta)). eexists. now apply moffat_derive. }
    intros Q HQ. specialize (C Q HQ). destruct C as [e H]. exists e. intros; now apply H. }
  split.
  - intros r R. unfold light_within. apply (gen_law _ (moffat_light A alpha beta) (at_point r)); trivial; [intros; now apply moffat_derive|intros; now apply moffat_cont|exact (lim_at_point _ _)].
  - unfold total_light. apply (gen_law _ (moffat_light A alpha beta) (Rbar_locally p_infty)); trivial; [intros; now apply moffat_derive|intros; now apply moffat_cont|apply infty_pos|].
    intros Q [e H]. set (d := e / (Rabs A + 1)). pose proof (Rabs_pos A). pose proof (cond_pos e). assert (D : 0 < d) by (unfold d; pos).
    exists (alpha * (1 + Rpower d (/ (1 - beta)))). intros r R. apply H. change (Rabs (moffat_light A alpha beta r - A) < e). unfold moffat_light.
    set (Y := Rpower d (/ (1 - beta))) in *. assert (Y0 : 0 < Y) by (unfold Y, Rpower; apply exp_pos). assert (X : 1 + Y < r / alpha). { apply Rmult_lt_reg_r with alpha; trivial. replace (r / alpha * alpha) with r by (field; lra). lra. }
    set (x := r / alpha) in *. assert (Z : Y < 1 + x ^ 2) by nra.
    assert (K : Rpower (1 + x ^ 2) (1 - beta) < d). { assert (DY : d = Rpower Y (1 - beta)). { unfold Y. rewrite Rpower_mult. replace (/ (1 - beta) * (1 - beta)) with 1 by (field; lra). now rewrite Rpower_1. } rewrite DY.
      unfold Rpower. apply exp_increasing. assert (ln Y < ln (1 + x ^ 2)) by (now apply ln_increasing). nra. }
    assert (0 < Rpower (1 + x ^ 2) (1 - beta)) by apply exp_pos. clearbody Y. set (w := Rpower (1 + x ^ 2) (1 - beta)) in *. replace (A * (1 - w) - A) with (- (A * w)) by ring. rewrite Rabs_Ropp, Rabs_mult, (Rabs_pos_eq w) by lra.
    replace (pos e) with ((Rabs A + 1) * d) by (unfold d; field; lra). nra.
Qed.

(** ** NFW: the closed form of integrateSpherical is the mass within *)
Lemma nfw_mass_eq rho0 rc sv r : integrateSpherical (Halo rho0 rc sv) 0 r = 4 * PI * rho0 * rc ^ 3 * (ln (1 + r / rc) - r / rc / (1 + r / rc)).
Proof. unfold integrateSpherical. destruct (Req_EM_T 0 0); [reflexivity|congruence]. Qed.
Lemma ln_bounds x : 0 < x -> x / (1 + x) < ln (1 + x) < x.
Proof.
  intros P. assert (G : 0 < 1 + x) by lra. split.
  - replace (x / (1 + x)) with (1 - / (1 + x)) by (field; lra). pose proof (exp_ineq1 (- ln (1 + x))) as E. rewrite exp_Ropp, exp_ln in E by lra. assert (0 < ln (1 + x)) by (rewrite <- ln_1; apply ln_increasing; lra). lra.
  - rewrite <- (ln_exp x) at 2. apply ln_increasing; [lra|]. apply exp_ineq1. lra.
Qed.
Lemma nfw_derive rho0 rc sv r : 0 < rc -> 0 < r -> is_derive (integrateSpherical (Halo rho0 rc sv) 0) r (4 * PI * r ^ 2 * nfw rho0 rc r).
Proof.
  intros P R. apply (is_derive_ext (fun r => 4 * PI * rho0 * rc ^ 3 * (ln (1 + r / rc) - r / rc / (1 + r / rc)))). { intros; symmetry; apply nfw_mass_eq. }
  assert (0 < r / rc) by pos. unfold nfw. auto_derive. { unfold Rdiv in H. repeat split; lra. } field. repeat split; lra.
Qed.
Lemma nfw_cont rho0 rc r : 0 < rc -> 0 < r -> continuous (fun s => 4 * PI * s ^ 2 * nfw rho0 rc s) r.
Proof. intros. assert (0 < r / rc) by pos. apply @ex_derive_continuous. unfold nfw. auto_derive. apply Rgt_not_eq. unfold Rdiv in *. pos. Qed.
Lemma nfw_lim0 rho0 rc sv : 0 < rc -> filterlim (integrateSpherical (Halo rho0 rc sv) 0) (at_right 0) (locally 0).
Proof.
  intros P. pose proof PI_RGT_0. apply lim_0 with (4 * PI * Rabs rho0 * rc ^ 2). intros r R. rewrite nfw_mass_eq. assert (X : 0 < r / rc) by pos. pose proof (ln_bounds _ X). assert (0 < r / rc / (1 + r / rc)) by pos.
  set (k := ln _ - _). assert (0 <= k <= r / rc) by (unfold k; lra). rewrite !Rabs_mult. rewrite (Rabs_pos_eq 4), (Rabs_pos_eq PI), (Rabs_pos_eq (rc ^ 3)), (Rabs_pos_eq k) by first [lra | left; apply pow_lt; lra].
  replace (4 * PI * Rabs rho0 * rc ^ 2 * r) with (4 * PI * Rabs rho0 * rc ^ 3 * (r / rc)) by (field; lra). apply Rmult_le_compat_l; [|lra]. apply Rmult_le_pos; [|left; apply pow_lt; lra]. apply Rmult_le_pos; [lra|apply Rabs_pos].
Qed.
Theorem C62_nfw : forall rho0 rc sv r, 0 < rc -> 0 < r -> mass_within (nfw rho0 rc) r (integrateSpherical (Halo rho0 rc sv) 0 r).
Proof.
  intros rho0 rc sv r P R. unfold mass_within. apply (gen_law _ (integrateSpherical (Halo rho0 rc sv) 0) (at_point r)); trivial; [intros; now apply nfw_derive|intros; now apply nfw_cont|now apply nfw_lim0|exact (lim_at_point _ _)].
Qed.
(** ... but between two radii the result is not the mass of the shell: a lower bound that is not 0 drops the weight 4 pi r^2 *)
Theorem C62_shell_refuted : exists m a b, 0 < rho0 m /\ 0 < rc m /\ 0 < a < b /\ integrateSpherical m a b <> integrateSpherical m 0 b - integrateSpherical m 0 a.
Proof.
  exists (Halo 1 1 None), 1, 2. cbn [rho0 rc]. repeat split; try lra. rewrite !nfw_mass_eq. unfold integrateSpherical at 1. destruct (Req_EM_T 1 0); [lra|]. cbn [rho0 rc].
  assert (E : is_RInt (nfw 1 1) 1 2 ((ln 2 - ln (1 + 2) + / (1 + 2)) - (ln 1 - ln (1 + 1) + / (1 + 1)))).
  { apply (is_RInt_derive (fun r => ln r - ln (1 + r) + / (1 + r))).
    - intros x X. rewrite Rmin_left, Rmax_right in X by lra. unfold nfw. auto_derive. { repeat split; lra. } field. lra.
    - intros x X. rewrite Rmin_left, Rmax_right in X by lra. apply @ex_derive_continuous. unfold nfw. auto_derive. apply Rgt_not_eq. pos. }
  rewrite (is_RInt_unique _ _ _ _ E). rewrite ln_1. intros H. pose proof PI2_3_2. 
  replace (1 + 2 / 1) with 3 in H by field. replace (1 + 1 / 1) with 2 in H by field. replace (1 + 2) with 3 in H by ring. replace (1 + 1) with 2 in H by ring.
  assert (L2 : / 2 < ln 2) by (pose proof (ln_bounds 1 ltac:(lra)); replace (1 + 1) with 2 in * by ring; lra).
  assert (L3 : ln 3 - ln 2 < 1 / 2). { rewrite <- ln_div by lra. replace (3 / 2) with (1 + 1 / 2) by lra. apply ln_bounds. lra. }
  assert (L3' : 1 / 3 < ln 3 - ln 2). { rewrite <- ln_div by lra. replace (3 / 2) with (1 + 1 / 2) by lra. pose proof (ln_bounds (1 / 2) ltac:(lra)). lra. }
  assert (L2' : ln 2 < 1). { pose proof (ln_bounds 1 ltac:(lra)). replace (1 + 1) with 2 in * by ring; lra. }
  nra.
Qed.
