(** * ProfProj: the projected NFW profile (C62) *)
From Coq Require Import List Bool Reals Lra Lia Psatz.
From Coquelicot Require Import Coquelicot.
From Verif Require Import PyBase SpecModel ProfModel ProfBlackbody ProfMass.
Open Scope R_scope.
Ltac fld := field; repeat split; try lra; try nra; try (apply Rgt_not_eq; nra).

(** the profile in units of the scale radius *)
Definition prat (x : R) : R := if Rlt_dec 1 x then acos (/ x) * / sqrt (Rabs (x * x - 1)) else if Rlt_dec x 1 then arccosh (/ x) * / sqrt (Rabs (x * x - 1)) else 1.
Definition pmass (x : R) : R := prat x + ln (x / 2).
Definition pring (x : R) : R := x * (if Req_EM_T x 1 then / 3 else (1 - prat x) / (x * x - 1)).

Lemma circular_eq rc sig0 r : 0 < rc -> 0 < r -> integrateCircular rc sig0 r = sig0 * pmass (r / rc).
Proof.
  intros P R. unfold integrateCircular, pmass, prat. assert (0 < r / rc) by pos. set (x := r / rc) in *. destruct (Rlt_dec 1 x); trivial. destruct (Rlt_dec x 1); trivial.
  assert (x = 1) by lra. rewrite H0. unfold Rdiv. rewrite Rmult_1_l, ln_Rinv by lra. lra.
Qed.
Lemma projected_eq rc sig0 r : 0 < rc -> 0 < r -> 2 * PI * r * nfw_projected rc sig0 r = sig0 / rc * pring (r / rc).
Proof.
  intros P R. pose proof PI_RGT_0. unfold nfw_projected, pring, prat, nfw_cinv. assert (0 < r / rc) by pos. replace r with (r / rc * rc) at 1 by (field; lra). set (x := r / rc) in *. clearbody x.
  destruct (Req_EM_T x 1) as [->|N]. { fld. }
  destruct (Rle_dec 1 x), (Rlt_dec 1 x); try lra; try (exfalso; apply N; lra).
  - set (i := / sqrt _). clearbody i. fld.
  - destruct (Rlt_dec x 1); [|exfalso; apply N; lra]. set (i := / sqrt _). clearbody i. fld.
Qed.

(** ** outside: x > 1, u = sqrt (x^2 - 1) *)
Lemma prat_out x : 1 < x -> let u := sqrt (x ^ 2 - 1) in 0 < u /\ u ^ 2 = x ^ 2 - 1 /\ prat x = atan u / u.
Proof.
  intros X u. assert (Q : 0 < x ^ 2 - 1) by nra. assert (U : 0 < u) by (now apply sqrt_lt_R0). assert (U2 : u ^ 2 = x ^ 2 - 1). { unfold u. rewrite <- Rsqr_pow2. apply Rsqr_sqrt. lra. }
  split; [|split]; trivial. unfold prat. destruct (Rlt_dec 1 x); [|lra]. rewrite (Rabs_pos_eq (x * x - 1)) by nra. replace (x * x - 1) with (x ^ 2 - 1) by ring. fold u. unfold Rdiv. f_equal.
  assert (0 < / x) by pos. rewrite acos_atan by trivial. f_equal.
  replace (1 - (/ x)²) with ((u / x)²). 2:{ unfold Rsqr. replace (u / x * (u / x)) with (u ^ 2 / x ^ 2) by (field; lra). rewrite U2. field. lra. }
  rewrite sqrt_Rsqr by (left; pos). field. lra.
Qed.
Lemma atan_bounds u : 0 < u -> u - u ^ 3 / 3 < atan u < u - u ^ 3 / 3 + u ^ 5 / 5.
Proof.
  intros U. split.
  - assert ((fun t => atan t - (t - t ^ 3 / 3)) 0 < (fun t => atan t - (t - t ^ 3 / 3)) u).
    { apply (incr_by_derivative (fun t => atan t - (t - t ^ 3 / 3)) (fun t => / (1 + t ^ 2) - (1 - t ^ 2))); trivial.
      - intros y Y. assert (0 < 1 + y ^ 2) by nra. auto_derive; trivial. unfold Rsqr. field. simpl in H. lra.
      - intros y Y. assert (0 < 1 + y ^ 2) by nra. replace (/ (1 + y ^ 2) - (1 - y ^ 2)) with (y ^ 4 / (1 + y ^ 2)) by (field; lra). pos. }
    simpl in H. rewrite atan_0 in H. simpl. lra.
  - assert ((fun t => (t - t ^ 3 / 3 + t ^ 5 / 5) - atan t) 0 < (fun t => (t - t ^ 3 / 3 + t ^ 5 / 5) - atan t) u).
    { apply (incr_by_derivative (fun t => (t - t ^ 3 / 3 + t ^ 5 / 5) - atan t) (fun t => (1 - t ^ 2 + t ^ 4) - / (1 + t ^ 2))); trivial.
      - intros y Y. assert (0 < 1 + y ^ 2) by nra. auto_derive; trivial. unfold Rsqr. field. simpl in H. lra.
      - intros y Y. assert (0 < 1 + y ^ 2) by nra. replace (1 - y ^ 2 + y ^ 4 - / (1 + y ^ 2)) with (y ^ 6 / (1 + y ^ 2)) by (field; lra). pos. }
    simpl in H. rewrite atan_0 in H. simpl. lra.
Qed.
(** ** inside: x < 1, s = sqrt (1 - x^2) *)
Definition artanh (s : R) : R := (ln (1 + s) - ln (1 - s)) / 2.
Lemma prat_in x : 0 < x < 1 -> let s := sqrt (1 - x ^ 2) in 0 < s < 1 /\ s ^ 2 = 1 - x ^ 2 /\ prat x = (ln (1 + s) - ln x) / s /\ prat x = artanh s / s.
Proof.
  intros X s. assert (Q : 0 < 1 - x ^ 2) by nra. assert (U : 0 < s) by (now apply sqrt_lt_R0). assert (U2 : s ^ 2 = 1 - x ^ 2). { unfold s. rewrite <- Rsqr_pow2. apply Rsqr_sqrt. lra. }
  assert (S1 : s < 1) by nra. assert (E : prat x = (ln (1 + s) - ln x) / s).
  { unfold prat. destruct (Rlt_dec 1 x); [lra|]. destruct (Rlt_dec x 1); [|lra]. rewrite (Rabs_left (x * x - 1)) by nra. replace (- (x * x - 1)) with (1 - x ^ 2) by ring. fold s. unfold Rdiv. f_equal. unfold arccosh.
    replace ((/ x) ^ 2 - 1) with ((s / x)²). 2:{ unfold Rsqr. replace (s / x * (s / x)) with (s ^ 2 / x ^ 2) by (field; lra). rewrite U2. field. lra. }
    rewrite sqrt_Rsqr by (left; pos). replace (/ x + s / x) with ((1 + s) / x) by (field; lra). rewrite ln_div by lra. reflexivity. }
  split; [lra|split; [trivial|split; trivial]]. rewrite E. f_equal. unfold artanh. assert (L : 2 * ln x = ln (1 + s) + ln (1 - s)); [|lra].
  rewrite <- ln_mult by lra. replace ((1 + s) * (1 - s)) with (x * x) by nra. rewrite ln_mult by lra. lra.
Qed.
Lemma artanh_bounds s : 0 < s < 1 -> s + s ^ 3 / 3 < artanh s < s + s ^ 3 / 3 + s ^ 3 / (3 * (1 - s ^ 2)) - s ^ 3 / 3.
Proof.
  intros S0. split.
  - assert ((fun t => artanh t - (t + t ^ 3 / 3)) 0 < (fun t => artanh t - (t + t ^ 3 / 3)) s).
    { apply (incr_by_derivative (fun t => artanh t - (t + t ^ 3 / 3)) (fun t => / (1 - t ^ 2) - (1 + t ^ 2))); [lra| |].
      - intros y Y. assert (0 < 1 - y ^ 2) by nra. unfold artanh. auto_derive. { repeat split; lra. } field. repeat split; lra.
      - intros y Y. assert (0 < 1 - y ^ 2) by nra. replace (/ (1 - y ^ 2) - (1 + y ^ 2)) with (y ^ 4 / (1 - y ^ 2)) by (field; lra). pos. }
    unfold artanh in *. replace (1 - 0) with 1 in H by ring. replace (1 + 0) with 1 in H by ring. rewrite ln_1 in H. simpl in *. lra.
  - assert (K : s ^ 3 / (3 * (1 - s ^ 2)) = s ^ 3 / 3 / (1 - s ^ 2)) by (field; nra). 
    assert ((fun t => (t + t ^ 3 / 3 / (1 - s ^ 2)) - artanh t) 0 < (fun t => (t + t ^ 3 / 3 / (1 - s ^ 2)) - artanh t) s).
    { assert (0 < 1 - s ^ 2) by nra. apply (incr_by_derivative (fun t => (t + t ^ 3 / 3 / (1 - s ^ 2)) - artanh t) (fun t => (1 + t ^ 2 / (1 - s ^ 2)) - / (1 - t ^ 2))); [lra| |].
      - intros y Y. assert (0 < 1 - y ^ 2) by nra. unfold artanh. auto_derive. { repeat split; lra. } field. repeat split; lra.
      - intros y Y. assert (0 < 1 - y ^ 2) by nra. assert (0 < s ^ 2 - y ^ 2) by nra. replace (1 + y ^ 2 / (1 - s ^ 2) - / (1 - y ^ 2)) with (y ^ 2 * (s ^ 2 - y ^ 2) / ((1 - s ^ 2) * (1 - y ^ 2))) by (field; lra). pos. }
    cbv beta in H. unfold artanh in *. replace (1 - 0) with 1 in H by ring. replace (1 + 0) with 1 in H by ring. rewrite ln_1 in H. replace (0 ^ 3) with 0 in H by ring. replace (0 / 3 / (1 - s ^ 2)) with 0 in H by (field; nra). lra.
Qed.
(** both together: near the scale radius *)
Lemma pring_near x : 1 / 2 < x < 2 -> Rabs (pring x - / 3) <= 10 * Rabs (x - 1).
Proof.
  intros X. unfold pring. destruct (Req_EM_T x 1) as [->|N]. { replace (1 * / 3 - / 3) with 0 by ring. rewrite Rabs_R0. pose proof (Rabs_pos (1 - 1)). lra. }
  assert (K : Rabs ((1 - prat x) / (x * x - 1) - / 3) <= 3 / 2 * Rabs (x * x - 1)).
  { destruct (Rlt_dec 1 x) as [G|L].
    - destruct (prat_out x G) as (U & U2 & E). set (u := sqrt (x ^ 2 - 1)) in *. rewrite E. replace (x * x - 1) with (u ^ 2) by lra. destruct (atan_bounds u U) as [B1 B2].
      assert (0 < u ^ 2) by (apply pow_lt; lra). rewrite (Rabs_pos_eq (u ^ 2)) by lra.
      replace ((1 - atan u / u) / u ^ 2 - / 3) with (- ((atan u - (u - u ^ 3 / 3)) / u ^ 3)) by (field; lra). rewrite Rabs_Ropp. assert (0 < u ^ 3) by (apply pow_lt; lra).
      rewrite Rabs_pos_eq by (left; apply Rdiv_lt_0_compat; lra). apply Rle_trans with ((u ^ 5 / 5) / u ^ 3). { unfold Rdiv at 1 4. apply Rmult_le_compat_r; [left; pos|lra]. } replace (u ^ 5 / 5 / u ^ 3) with (u ^ 2 / 5) by (field; lra). lra.
    - destruct (prat_in x ltac:(lra)) as (S1 & S2 & _ & E). set (s := sqrt (1 - x ^ 2)) in *. rewrite E. replace (x * x - 1) with (- s ^ 2) by lra. destruct (artanh_bounds s S1) as [B1 B2].
      assert (0 < s ^ 2) by (apply pow_lt; lra). rewrite Rabs_Ropp, (Rabs_pos_eq (s ^ 2)) by lra. assert (0 < s ^ 3) by (apply pow_lt; lra).
      replace ((1 - artanh s / s) / - s ^ 2 - / 3) with ((artanh s - (s + s ^ 3 / 3)) / s ^ 3) by (field; lra). 
      rewrite Rabs_pos_eq by (left; apply Rdiv_lt_0_compat; lra). assert (1 / 4 < 1 - s ^ 2) by (rewrite S2; nra).
      apply Rle_trans with ((s ^ 3 / (3 * (1 - s ^ 2)) - s ^ 3 / 3) / s ^ 3). { unfold Rdiv at 1 3. apply Rmult_le_compat_r; [left; pos|lra]. }
      replace ((s ^ 3 / (3 * (1 - s ^ 2)) - s ^ 3 / 3) / s ^ 3) with (s ^ 2 * (/ (1 - s ^ 2) / 3)) by (field; lra).
      assert (/ (1 - s ^ 2) <= 4). { replace 4 with (/ (1 / 4)) by lra. apply Rinv_le_contravar; lra. } nra. }
  set (k := (1 - prat x) / (x * x - 1)) in *. clearbody k. 
  assert (F : Rabs (x * x - 1) <= 3 * Rabs (x - 1)). { replace (x * x - 1) with ((x - 1) * (x + 1)) by ring. rewrite Rabs_mult, (Rabs_pos_eq (x + 1)) by lra. pose proof (Rabs_pos (x - 1)). nra. }
  replace (x * k - / 3) with (x * (k - / 3) + (x - 1) * / 3) by ring. eapply Rle_trans; [apply Rabs_triang|]. rewrite !Rabs_mult, (Rabs_pos_eq x), (Rabs_pos_eq (/ 3)) by lra. 
  pose proof (Rabs_pos (k - / 3)). pose proof (Rabs_pos (x - 1)). nra.
Qed.
Lemma prat_near x : 1 / 2 < x < 2 -> Rabs (prat x - 1) <= 31 * Rabs (x - 1).
Proof.
  intros X. pose proof (pring_near x X) as B. unfold pring in B. destruct (Req_EM_T x 1) as [->|N]. { unfold prat. destruct (Rlt_dec 1 1); [lra|]. rewrite !Rminus_eq_0, Rabs_R0. lra. }
  set (k := (1 - prat x) / (x * x - 1)) in *. assert (x * x - 1 <> 0) by (intros H; apply N; nra). replace (prat x - 1) with (- (k * (x * x - 1))) by (unfold k; field; trivial).
  clearbody k. rewrite Rabs_Ropp. replace (k * (x * x - 1)) with (x * k * ((x + 1) / x) * (x - 1)) by (field; lra). rewrite Rabs_mult. apply Rmult_le_compat_r; [apply Rabs_pos|]. 
  assert (0 <= (x + 1) / x <= 3). { split; [left; pos|]. apply Rmult_le_reg_r with x; [lra|]. replace ((x + 1) / x * x) with (x + 1) by (field; lra). lra. }
  rewrite Rabs_mult, (Rabs_pos_eq ((x + 1) / x)) by lra. 
  assert (Rabs (x * k) <= 31 / 3). { replace (x * k) with ((x * k - / 3) + / 3) by ring. eapply Rle_trans; [apply Rabs_triang|]. rewrite (Rabs_pos_eq (/ 3)) by lra. assert (Rabs (x - 1) <= 1) by (apply Rabs_le; lra). lra. }
  pose proof (Rabs_pos (x * k)). nra.
Qed.
Lemma lim_near (f : R -> R) K : 0 < K -> (forall x, 1 / 2 < x < 2 -> Rabs (f x - f 1) <= K * Rabs (x - 1)) -> continuous f 1.
Proof.
  intros K0 B P [e Q]. assert (D : 0 < Rmin (1 / 2) (e / K)). { apply Rmin_glb_lt; [lra|]. apply Rdiv_lt_0_compat; [apply e|trivial]. } exists (mkposreal _ D). intros y Y. change (Rabs (y - 1) < Rmin (1 / 2) (e / K)) in Y.
  apply Q. change (Rabs (f y - f 1) < e). pose proof (Rmin_l (1 / 2) (e / K)). pose proof (Rmin_r (1 / 2) (e / K)). assert (Y2 : Rabs (y - 1) < 1 / 2) by lra. apply Rabs_def2 in Y2.
  eapply Rle_lt_trans; [apply B; lra|]. replace (pos e) with (K * (e / K)) by (field; lra). apply Rmult_lt_compat_l; lra.
Qed.
Lemma near_gt (a x : R) : a < x -> locally x (fun y => a < y).
Proof. intros L. exists (mkposreal (x - a) ltac:(lra)). intros y Y. change (Rabs (y - x) < x - a) in Y. apply Rabs_def2 in Y. lra. Qed.
Lemma near_lt (a x : R) : x < a -> locally x (fun y => y < a).
Proof. intros L. exists (mkposreal (a - x) ltac:(lra)). intros y Y. change (Rabs (y - x) < a - x) in Y. apply Rabs_def2 in Y. lra. Qed.
Lemma sq_eq x : x * (x * 1) = x ^ 2. Proof. ring. Qed.
Lemma prat_derive_out x : 1 < x -> is_derive prat x (/ x * (/ (x ^ 2 - 1)) - x * prat x / (x ^ 2 - 1)).
Proof.
  intros X. destruct (prat_out x X) as (U & U2 & E). 
  apply (is_derive_ext_loc (fun y => atan (sqrt (y ^ 2 - 1)) / sqrt (y ^ 2 - 1))). { refine (filter_imp _ _ _ (near_gt 1 x X)). intros y Y. symmetry. apply prat_out, Y. }
  rewrite E. assert (0 < x ^ 2 - 1) by nra. auto_derive. { split; [simpl in *; lra|]. split; [simpl in *; lra|]. split; [|trivial]. apply Rgt_not_eq. exact U. }
  rewrite !sq_eq. fold (x ^ 2 - 1). replace (x ^ 2 + - (1)) with (x ^ 2 - 1) by ring. set (u := sqrt (x ^ 2 - 1)) in *. clearbody u. replace (x ^ 2 - 1) with (u ^ 2) by lra.
  replace (1 + u ^ 2) with (x ^ 2) by lra. set (a := atan u). clearbody a. field. lra.
Qed.
Lemma prat_derive_in x : 0 < x < 1 -> is_derive prat x (/ x * (/ (x ^ 2 - 1)) - x * prat x / (x ^ 2 - 1)).
Proof.
  intros X. destruct (prat_in x X) as (U & U2 & E & _). 
  apply (is_derive_ext_loc (fun y => (ln (1 + sqrt (1 - y ^ 2)) - ln y) / sqrt (1 - y ^ 2))). { refine (filter_imp _ _ _ (filter_and _ _ (near_gt 0 x (proj1 X)) (near_lt 1 x (proj2 X)))). intros y Y. symmetry. apply prat_in, Y. }
  rewrite E. assert (0 < 1 - x ^ 2) by nra. assert (0 < sqrt (1 - x ^ 2)) by lra. assert (0 < sqrt (1 + - (x * (x * 1)))) by exact H0. auto_derive. { repeat split; try lra; simpl in *; lra. }
  rewrite !sq_eq. replace (1 + - x ^ 2) with (1 - x ^ 2) by ring. set (s := sqrt (1 - x ^ 2)) in *. clearbody s. replace (x ^ 2 - 1) with (- s ^ 2) by lra.
  set (a := ln (1 + s)). set (b := ln x). clearbody a b. assert (X2 : x ^ 2 = 1 - s ^ 2) by lra. 
  assert (I : / (1 + s) = (1 - s) / x ^ 2). { rewrite X2. field. split; nra. } rewrite I. field. lra.
Qed.
Lemma prat_derive x : 0 < x -> x <> 1 -> is_derive prat x (/ x * (/ (x ^ 2 - 1)) - x * prat x / (x ^ 2 - 1)).
Proof. intros X N. destruct (Rlt_dec 1 x); [now apply prat_derive_out|]. apply prat_derive_in. split; trivial. destruct (Rle_lt_dec 1 x); trivial. exfalso; apply N; lra. Qed.
Lemma pmass_derive_ne x : 0 < x -> x <> 1 -> is_derive pmass x (pring x).
Proof.
  intros X N. unfold pmass. assert (D : pring x = (/ x * (/ (x ^ 2 - 1)) - x * prat x / (x ^ 2 - 1)) + / x). { assert (x ^ 2 - 1 <> 0) by (intros H; apply N; nra). unfold pring. destruct (Req_EM_T x 1); [contradiction|]. replace (x * x - 1) with (x ^ 2 - 1) by ring. field. split; trivial. lra. }
  rewrite D. apply (is_derive_plus prat (fun x => ln (x / 2))); [now apply prat_derive|]. auto_derive; [lra|]. field. lra.
Qed.
Lemma pmass_cont_1 : continuous pmass 1.
Proof.
  unfold pmass. apply (continuous_plus prat (fun x => ln (x / 2))).
  - apply lim_near with 31; [lra|]. intros x X. replace (prat 1) with 1. now apply prat_near. unfold prat. destruct (Rlt_dec 1 1); lra.
  - apply @ex_derive_continuous. auto_derive. lra.
Qed.
Lemma pring_cont_1 : continuous pring 1.
Proof. apply lim_near with 10; [lra|]. intros x X. replace (pring 1) with (/ 3). now apply pring_near. unfold pring. destruct (Req_EM_T 1 1); [ring|congruence]. Qed.
(** a function that is continuous at a point and whose derivative extends continuously to it *)
Lemma derive_extends (f df : R -> R) (a : R) : 0 < a -> (forall x, 0 < x -> x <> a -> is_derive f x (df x)) -> continuous f a -> continuous df a -> is_derive f a (df a).
Proof.
  intros A D Cf Cdf. apply is_derive_Reals. intros e E. destruct (Cdf (fun y => Rabs (y - df a) < e)) as [d Hd]. { exists (mkposreal e E). intros y Y. exact Y. }
  assert (M : 0 < Rmin d a) by (apply Rmin_glb_lt; [apply d|trivial]). exists (mkposreal _ M). intros h H0 H. simpl in H. pose proof (Rmin_l d a). pose proof (Rmin_r d a). assert (Ha : Rabs h < a) by lra. apply Rabs_def2 in Ha.
  destruct (MVT_gen f a (a + h) df) as (m & B & E').
  - intros x X. apply D. { destruct (Rle_dec a (a + h)); [rewrite Rmin_left in X by lra|rewrite Rmin_right in X by lra]; lra. } destruct (Rle_dec a (a + h)); [rewrite Rmin_left in X by lra|rewrite Rmax_left in X by lra]; lra.
  - intros x X. apply continuity_pt_filterlim. destruct (Req_EM_T x a) as [->|N]; [exact Cf|]. apply @ex_derive_continuous. eexists. apply D; trivial. destruct (Rle_dec a (a + h)); [rewrite Rmin_left in X by lra|rewrite Rmin_right in X by lra]; lra.
  - rewrite E'. replace (df m * (a + h - a) / h - df a) with (df m - df a) by (field; trivial). apply Hd. change (Rabs (m - a) < d).
    assert (Rabs (m - a) <= Rabs h); [|lra]. destruct (Rle_dec 0 h); [rewrite Rmin_left, Rmax_right in B by lra; rewrite !Rabs_pos_eq by lra; lra|]. rewrite Rmin_right, Rmax_left in B by lra. rewrite !Rabs_left1 by lra. lra.
Qed.
Lemma pmass_derive x : 0 < x -> is_derive pmass x (pring x).
Proof. intros X. destruct (Req_EM_T x 1) as [->|N]; [|now apply pmass_derive_ne]. apply derive_extends; [lra|intros; now apply pmass_derive_ne|apply pmass_cont_1|apply pring_cont_1]. Qed.
Lemma pring_cont x : 0 < x -> continuous pring x.
Proof.
  intros X. destruct (Req_EM_T x 1) as [->|N]; [apply pring_cont_1|]. 
  assert (L : locally x (fun y => y <> 1)). { destruct (Rlt_dec 1 x) as [G|G]; [refine (filter_imp _ _ _ (near_gt 1 x G)); intros y Y; lra|]. assert (x < 1). { destruct (Rle_lt_dec 1 x); trivial. exfalso; apply N; lra. } refine (filter_imp _ _ _ (near_lt 1 x H)); intros y Y; lra. }
  apply (continuous_ext_loc (T:=R_UniformSpace) (U:=R_UniformSpace) pring (fun y => y * ((1 - prat y) / (y * y - 1))) x).
  { refine (filter_imp _ _ _ L). intros y Y. unfold pring. destruct (Req_EM_T y 1); [contradiction|reflexivity]. }
  apply @ex_derive_continuous. assert (x * x - 1 <> 0) by (intros H; apply N; nra). auto_derive. repeat split; trivial. eexists. now apply prat_derive.
Qed.
(** at the centre *)
Lemma pmass_0 x : 0 < x < 1 / 2 -> Rabs (pmass x) <= 4 * x.
Proof.
  intros X. unfold pmass. destruct (prat_in x ltac:(lra)) as (S1 & S2 & E & _). rewrite E. set (s := sqrt (1 - x ^ 2)) in *. clearbody s. 
  assert (1 / 2 < s) by nra. assert (K : 1 - s <= x ^ 2) by nra. rewrite ln_div by lra.
  assert (L2 : ln 2 < 1). { pose proof (ln_bounds 1 ltac:(lra)). replace (1 + 1) with 2 in * by ring; lra. }
  assert (A1 : ln 2 - ln (1 + s) <= 1 - s). { rewrite <- ln_div by lra. replace (2 / (1 + s)) with (1 + (1 - s) / (1 + s)) by (field; lra). assert (0 < (1 - s) / (1 + s)) by pos. pose proof (ln_bounds _ H0). assert ((1 - s) / (1 + s) <= (1 - s) / 1); [|lra]. unfold Rdiv. apply Rmult_le_compat_l; [lra|]. apply Rinv_le_contravar; lra. }
  assert (A2 : 0 < ln 2 - ln (1 + s)). { assert (ln (1 + s) < ln 2) by (apply ln_increasing; lra). lra. }
  assert (A3 : 0 < ln (1 + s)). { rewrite <- ln_1. apply ln_increasing; lra. }
  assert (A4 : 0 < - ln x < / x). { split. { rewrite <- (Ropp_involutive 0), Ropp_0. apply Ropp_lt_contravar. rewrite <- ln_1. apply ln_increasing; lra. } rewrite <- ln_Rinv by lra. assert (0 < / x - 1). { assert (1 < / x); [|lra]. rewrite <- Rinv_1. apply Rinv_lt_contravar; lra. } pose proof (ln_bounds _ H0). replace (1 + (/ x - 1)) with (/ x) in H1 by ring. lra. }
  set (a := ln (1 + s)) in *. set (b := ln x) in *. set (l2 := ln 2) in *. clearbody a b l2.
  assert (I : / s - 1 = (1 - s) / s) by (field; lra). assert (J : 0 <= (1 - s) / s <= 2 * x ^ 2). { split; [apply Rmult_le_pos; [lra|left; pos]|]. apply Rmult_le_reg_r with s; [lra|]. replace ((1 - s) / s * s) with (1 - s) by (field; lra). nra. }
  replace ((a - b) / s + (b - l2)) with (a * ((1 - s) / s) + (- b) * ((1 - s) / s) - (l2 - a)) by (field; lra). set (j := (1 - s) / s) in *. clearbody j.
  assert (B1 : 0 <= a * j <= 2 * x ^ 2) by nra. assert (B2 : 0 <= - b * j <= 2 * x). { split; [nra|]. apply Rle_trans with (/ x * (2 * x ^ 2)); [|right; field; lra]. apply Rmult_le_compat; lra. }
  apply Rabs_le. nra.
Qed.
Theorem C62_nfw_projected : forall rc sig0 r, 0 < rc -> 0 < r -> light_within (nfw_projected rc sig0) r (integrateCircular rc sig0 r).
Proof.
  intros rc sig0 r P R. unfold light_within. pose proof PI_RGT_0.
  apply (is_RInt_gen_ext (fun s => sig0 / rc * pring (s / rc))).
  { exists (fun a => 0 < a) (fun b => b = r). exists (mkposreal 1 Rlt_0_1); intros; trivial. reflexivity. intros a b A ->. cbn [fst snd]. intros x [X _]. symmetry. apply projected_eq; trivial. apply Rlt_trans with (2 := X). now apply Rmin_glb_lt. }
  apply (gen_law _ (fun s => sig0 * pmass (s / rc)) (at_point r)); trivial.
  - intros s S0. evar_last. { apply (is_derive_scal (fun s => pmass (s / rc)) s sig0). apply (is_derive_comp pmass (fun s => s / rc)); [apply pmass_derive; pos|]. auto_derive; trivial. }
    unfold scal, mult; simpl. unfold mult; simpl. field. lra.
  - intros s S0. apply (continuous_mult (K := R_AbsRing) (fun _ => sig0 / rc) (fun s => pring (s / rc))); [apply continuous_const|]. apply (continuous_comp (fun s => s / rc) pring); [apply @ex_derive_continuous; auto_derive; trivial|apply pring_cont; pos].
  - intros Q [e H0]. pose proof (cond_pos e). pose proof (Rabs_pos sig0). assert (D : 0 < Rmin (rc / 2) (e * rc / (4 * (Rabs sig0 + 1)))). { apply Rmin_glb_lt; pos. }
    exists (mkposreal _ D). intros y Y Y0. change (Rabs (y - 0) < Rmin (rc / 2) (e * rc / (4 * (Rabs sig0 + 1)))) in Y. rewrite Rminus_0_r, Rabs_pos_eq in Y by lra. pose proof (Rmin_l (rc / 2) (e * rc / (4 * (Rabs sig0 + 1)))). pose proof (Rmin_r (rc / 2) (e * rc / (4 * (Rabs sig0 + 1)))).
    apply H0. change (Rabs (sig0 * pmass (y / rc) - 0) < e). rewrite Rminus_0_r, Rabs_mult. assert (0 < y / rc) by pos.
    assert (YR : y / rc * rc = y) by (unfold Rdiv; rewrite Rmult_assoc, Rinv_l by lra; apply Rmult_1_r).
    assert (Z : y / rc < 1 / 2). { apply Rmult_lt_reg_r with rc; trivial. rewrite YR. lra. } pose proof (pmass_0 (y / rc) ltac:(lra)) as B.
    assert (W : y / rc < e / (4 * (Rabs sig0 + 1))). { apply Rmult_lt_reg_r with rc; trivial. rewrite YR. replace (e / (4 * (Rabs sig0 + 1)) * rc) with (e * rc / (4 * (Rabs sig0 + 1))) by (field; lra). lra. }
    apply Rle_lt_trans with (Rabs sig0 * (4 * (y / rc))); [apply Rmult_le_compat_l; lra|]. apply Rlt_le_trans with ((Rabs sig0 + 1) * (4 * (e / (4 * (Rabs sig0 + 1))))); [nra|right; field; lra].
  - rewrite circular_eq by trivial. exact (lim_at_point (fun s => sig0 * pmass (s / rc)) r).
Qed.
