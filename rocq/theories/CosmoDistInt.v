(** * CosmoDistInt: C42 (cosmological distances) *)
From Coq Require Import List Reals Lra Lia.
From Coquelicot Require Import Coquelicot.
From Verif Require Import PyBase CosmoDistModel CosmoDistProps.
Import ListNotations.
Open Scope R_scope.

(** an expanding universe: H0 > 0 and H^2 > 0 at every redshift >= 0 *)
Definition physical (w : frw) : Prop := 0 < Hub w /\ forall z, 0 <= z -> 0 < E2 w z.
Lemma H2a4_E2 w a : 0 < a -> H2a4 w a = a ^ 4 * E2 w (1 / a - 1).
Proof. intros Ha. unfold H2a4, E2. replace (1 + (1 / a - 1)) with (/ a) by (field; lra). field. lra. Qed.
Lemma H2a4_pos w a : physical w -> 0 < a <= 1 -> 0 < H2a4 w a.
Proof.
  intros (_ & P) Ha. rewrite H2a4_E2 by lra. apply Rmult_lt_0_compat; [apply pow_lt; lra|]. apply P. assert (1 <= 1 / a); [|lra]. apply Rmult_le_reg_r with a; [lra|]. replace (1 / a * a) with 1 by (field; lra). lra.
Qed.
Lemma H2a4_cont w a : continuous (H2a4 w) a.
Proof. apply (ex_derive_continuous (H2a4 w)). unfold H2a4. auto_derive. auto. Qed.
Lemma cont_f w a : 0 < Hub w -> 0 < H2a4 w a -> continuous (integrand w) a.
Proof. intros HH HE. apply (ex_derive_continuous (integrand w)). unfold integrand, H2a4 in *. auto_derive. pose proof (sqrt_lt_R0 _ HE) as Hs. cbn [pow] in Hs, HE. repeat split; try lra; auto. Qed.
Lemma cont_t w a : 0 < Hub w -> 0 < H2a4 w a -> continuous (integrand_t w) a.
Proof. intros HH HE. apply (ex_derive_continuous (integrand_t w)). unfold integrand_t, H2a4 in *. auto_derive. pose proof (sqrt_lt_R0 _ HE) as Hs. cbn [pow] in Hs, HE. repeat split; try lra; auto. Qed.
(** around a0 in (0,1] everything between x and 1 is fine *)
Lemma near w a0 : physical w -> 0 < a0 <= 1 -> exists eps, 0 < eps /\ forall x, Rabs (x - a0) < eps -> forall t, Rmin x 1 <= t <= Rmax x 1 -> 0 < H2a4 w t.
Proof.
  intros P Ha. destruct (H2a4_cont w 1 (fun y => 0 < y)) as (e & He).
  { exists (mkposreal _ (H2a4_pos w 1 P ltac:(lra))). intros y Hy. apply Rabs_def2 in Hy. unfold minus, plus, opp in Hy. cbn in Hy. lra. }
  exists (Rmin (a0 / 2) e). split; [apply Rmin_glb_lt; [lra|apply cond_pos]|]. intros x Hx t Ht. pose proof (Rmin_l (a0 / 2) e). pose proof (Rmin_r (a0 / 2) e). apply Rabs_def2 in Hx.
  destruct (Rle_dec x 1) as [L|L].
  - rewrite Rmin_left, Rmax_right in Ht by lra. apply H2a4_pos; [auto|lra].
  - rewrite Rmin_right, Rmax_left in Ht by lra. apply He. apply Rabs_def1; unfold minus, plus, opp; cbn; lra.
Qed.
Section Integral.
  Variable w : frw.
  Variable f : R -> R.
  Hypothesis P : physical w.
  Hypothesis Cf : forall a, 0 < H2a4 w a -> continuous f a.
  Hypothesis Pf : forall a, 0 < a <= 1 -> 0 < f a.
  Lemma exI a b : 0 < a <= 1 -> 0 < b <= 1 -> ex_RInt f a b.
  Proof. intros Ha Hb. apply (ex_RInt_continuous (V := R_CompleteNormedModule)). intros t Ht. apply Cf, H2a4_pos; [auto|]. unfold Rmin, Rmax in Ht. destruct (Rle_dec a b); lra. Qed.
  Lemma int_derive a0 : 0 < a0 <= 1 -> is_derive (fun x => RInt f x 1) a0 (- f a0).
  Proof.
    intros Ha. apply (is_derive_RInt' f (fun x => RInt f x 1) a0 1); [|apply Cf, H2a4_pos; auto]. destruct (near w a0 P Ha) as (e & He & N). exists (mkposreal e He). intros x Hx. apply (RInt_correct (V := R_CompleteNormedModule)), (ex_RInt_continuous (V := R_CompleteNormedModule)). intros t Ht. apply Cf, (N x); auto.
  Qed.
  Definition I (z : R) : R := RInt f (1 / (z + 1)) 1.
  Lemma a0_range z : 0 <= z -> 0 < 1 / (z + 1) <= 1.
  Proof. intros Hz. split; [apply Rdiv_lt_0_compat; lra|]. apply Rmult_le_reg_r with (z + 1); [lra|]. replace (1 / (z + 1) * (z + 1)) with 1 by (field; lra). lra. Qed.
  Lemma I_derive z : 0 <= z -> is_derive I z (f (1 / (z + 1)) / (1 + z) ^ 2).
  Proof.
    intros Hz. unfold I. replace (f (1 / (z + 1)) / (1 + z) ^ 2) with (scal (- 1 / (z + 1) ^ 2) (- f (1 / (z + 1)))) by (unfold scal; cbn; unfold mult; cbn; field; lra).
    apply (is_derive_comp (fun x => RInt f x 1) (fun z => 1 / (z + 1))); [apply int_derive, a0_range; auto|]. auto_derive; [lra|]. field. lra.
  Qed.
  Lemma I_0 : I 0 = 0. Proof. unfold I. replace (1 / (0 + 1)) with 1 by field. apply (RInt_point 1 f). Qed.
  Lemma I_incr x y : 0 <= x -> x < y -> I x < I y.
  Proof.
    intros Hx Hxy. unfold I. pose proof (a0_range x Hx) as A. pose proof (a0_range y ltac:(lra)) as B. assert (1 / (y + 1) < 1 / (x + 1)) as Hlt. { unfold Rdiv. rewrite !Rmult_1_l. apply Rinv_lt_contravar; [|lra]. apply Rmult_lt_0_compat; lra. }
    pose proof (RInt_Chasles f (1 / (y + 1)) (1 / (x + 1)) 1 ltac:(apply exI; lra) ltac:(apply exI; lra)) as Ch. change (RInt f (1 / (y + 1)) (1 / (x + 1)) + RInt f (1 / (x + 1)) 1 = RInt f (1 / (y + 1)) 1) in Ch. assert (0 < RInt f (1 / (y + 1)) (1 / (x + 1))); [|lra]. apply RInt_gt_0; [auto| |].
    - intros t Ht. apply Pf. lra.
    - intros t Ht. apply Cf, H2a4_pos; [auto|lra].
  Qed.
  Lemma I_pos z : 0 < z -> 0 < I z. Proof. intros H. rewrite <- I_0. apply I_incr; lra. Qed.
  Lemma I_nonneg z : 0 <= z -> 0 <= I z. Proof. intros [H| <-]; [left; apply I_pos; auto|rewrite I_0; lra]. Qed.
  Lemma I_cont z : 0 <= z -> continuity_pt I z.
  Proof. intros H. apply continuity_pt_filterlim, (ex_derive_continuous I). eexists. apply I_derive. auto. Qed.
End Integral.
Lemma pos_f w a : physical w -> 0 < a <= 1 -> 0 < integrand w a.
Proof. intros P Ha. unfold integrand. apply Rdiv_lt_0_compat; [|apply P]. apply Rinv_0_lt_compat, sqrt_lt_R0, H2a4_pos; auto. Qed.
Lemma pos_t w a : physical w -> 0 < a <= 1 -> 0 < integrand_t w a.
Proof. intros P Ha. unfold integrand_t. apply Rdiv_lt_0_compat; [|apply P]. apply Rmult_lt_0_compat; [lra|]. apply Rinv_0_lt_compat, sqrt_lt_R0, H2a4_pos; auto. Qed.
Definition D (w : frw) (t : nat) (z : R) : R := match zdist w t z with Ok d => d | _ => 0 end.
Lemma ckm_pos : 0 < ckm. Proof. unfold ckm, c_cgs. lra. Qed.
Lemma f_H w z : physical w -> 0 <= z -> integrand w (1 / (z + 1)) / (1 + z) ^ 2 = / Hz w z /\ integrand_t w (1 / (z + 1)) / (1 + z) ^ 2 = / ((1 + z) * Hz w z).
Proof.
  intros (HH & P) Hz0. rewrite Hz_E2 by lra. specialize (P z Hz0). unfold integrand_t, integrand. rewrite H2a4_E2 by (apply a0_range; auto). replace (1 / (1 / (z + 1)) - 1) with z by (field; lra).
  rewrite sqrt_mult by (try lra; apply pow_le; pose proof (a0_range z Hz0); lra). replace ((1 / (z + 1)) ^ 4) with (((1 / (z + 1)) ^ 2) ^ 2) by ring. rewrite sqrt_pow2 by (apply pow_le; pose proof (a0_range z Hz0); lra).
  pose proof (sqrt_lt_R0 _ P). split; field; repeat split; lra.
Qed.
Definition IC w := I (integrand w). Definition IT w := I (integrand_t w).
Definition gyr : R := 326163626 / 10 ^ 11.
Lemma D0 w z : D w 0 z = ckm * IC w z. Proof. reflexivity. Qed.
Lemma D1 w z : D w 1 z = ckm * IC w z / (1 / (z + 1)). Proof. reflexivity. Qed.
Lemma D3 w z : D w 3 z = ckm * IT w z * gyr. Proof. reflexivity. Qed.
Lemma D4 w z : D w 4 z = 5 * (ln (D w 1 z * 10 ^ 6) / ln 10) - 5. Proof. reflexivity. Qed.
Lemma gyr_pos : 0 < gyr. Proof. unfold gyr. apply Rdiv_lt_0_compat; [lra|]. apply pow_lt. lra. Qed.
Section Facts.
  Variable w : frw. Hypothesis P : physical w.
  Let CC := fun a => cont_f w a (proj1 P). Let CT := fun a => cont_t w a (proj1 P). Let PC := fun a => pos_f w a P. Let PT := fun a => pos_t w a P.
  Lemma IC0 : IC w 0 = 0. Proof. apply I_0. Qed.
  Lemma IT0 : IT w 0 = 0. Proof. apply I_0. Qed.
  Lemma IC_incr x y : 0 <= x -> x < y -> IC w x < IC w y. Proof. exact (I_incr w _ P CC PC x y). Qed.
  Lemma IT_incr x y : 0 <= x -> x < y -> IT w x < IT w y. Proof. exact (I_incr w _ P CT PT x y). Qed.
  Lemma IC_nonneg z : 0 <= z -> 0 <= IC w z. Proof. exact (I_nonneg w _ P CC PC z). Qed.
  Lemma IT_nonneg z : 0 <= z -> 0 <= IT w z. Proof. exact (I_nonneg w _ P CT PT z). Qed.
  Lemma IC_derive z : 0 <= z -> is_derive (IC w) z (/ Hz w z).
  Proof. intros Hz0. rewrite <- (proj1 (f_H w z P Hz0)). exact (I_derive w _ P CC z Hz0). Qed.
  Lemma IT_derive z : 0 <= z -> is_derive (IT w) z (/ ((1 + z) * Hz w z)).
  Proof. intros Hz0. rewrite <- (proj2 (f_H w z P Hz0)). exact (I_derive w _ P CT z Hz0). Qed.
  Lemma D_incr t : t = 0%nat \/ t = 1%nat \/ t = 3%nat -> forall x y, 0 <= x -> x < y -> D w t x < D w t y.
  Proof.
    pose proof ckm_pos as Hc. intros T x y Hx Hxy. pose proof (IC_incr x y Hx Hxy) as A. pose proof (IT_incr x y Hx Hxy) as B. destruct T as [->|[->| ->]].
    - rewrite !D0. apply Rmult_lt_compat_l; auto.
    - rewrite !D1. replace (ckm * IC w x / (1 / (x + 1))) with (ckm * (IC w x * (x + 1))) by (field; lra). replace (ckm * IC w y / (1 / (y + 1))) with (ckm * (IC w y * (y + 1))) by (field; lra). apply Rmult_lt_compat_l; [auto|]. pose proof (IC_nonneg x Hx). apply Rmult_le_0_lt_compat; lra.
    - rewrite !D3. apply Rmult_lt_compat_r; [apply gyr_pos|]. apply Rmult_lt_compat_l; auto.
  Qed.
  Lemma D_0 t : t = 0%nat \/ t = 1%nat \/ t = 3%nat -> D w t 0 = 0.
  Proof. intros [->|[->| ->]]; [rewrite D0, IC0|rewrite D1, IC0|rewrite D3, IT0]; unfold Rdiv; ring. Qed.
  Lemma D_derivable t : t = 0%nat \/ t = 1%nat \/ t = 3%nat -> forall z, 0 <= z -> ex_derive (D w t) z.
  Proof.
    intros T z Hz0. assert (ex_derive (IC w) z) as A by (eexists; apply IC_derive; auto). assert (ex_derive (IT w) z) as B by (eexists; apply IT_derive; auto). destruct T as [->|[->| ->]].
    - apply (ex_derive_ext (fun z => ckm * IC w z)); [reflexivity|]. auto_derive. auto.
    - apply (ex_derive_ext (fun z => ckm * IC w z / (1 / (z + 1)))); [reflexivity|]. auto_derive. split; [auto|]. split; [lra|]. split; [|auto]. apply Rgt_not_eq, Rdiv_lt_0_compat; lra.
    - apply (ex_derive_ext (fun z => ckm * IT w z * gyr)); [reflexivity|]. auto_derive. auto.
  Qed.
  Lemma D_cont t : t = 0%nat \/ t = 1%nat \/ t = 3%nat -> forall z, 0 <= z -> continuity_pt (D w t) z.
  Proof. intros T z Hz0. apply continuity_pt_filterlim, (ex_derive_continuous (D w t)), D_derivable; auto. Qed.
End Facts.

(** ** C42 *)
(** Comoving distance and lookback time start at 0 and grow at the rates c/H(z) and c/((1+z)H(z)) (this determines them). *)
Theorem C42_integrals : forall w, physical w -> zdist w 0 0 = Ok 0 /\ zdist w 3 0 = Ok 0 /\
  forall z, 0 <= z -> is_derive (D w 0) z (ckm / Hz w z) /\ is_derive (D w 3) z (gyr * ckm / ((1 + z) * Hz w z)).
Proof.
  intros w P. pose proof (D_0 w 0 ltac:(auto)) as A. pose proof (D_0 w 3 ltac:(auto)) as B. split; [rewrite <- A at 2; reflexivity|]. split; [rewrite <- B at 2; reflexivity|]. intros z Hz0. split.
  - replace (ckm / Hz w z) with (scal ckm (/ Hz w z)) by reflexivity. apply (is_derive_ext (fun z => scal ckm (IC w z))); [reflexivity|]. apply is_derive_scal. apply IC_derive; auto.
  - replace (gyr * ckm / ((1 + z) * Hz w z)) with (scal (ckm * gyr) (/ ((1 + z) * Hz w z))) by (unfold scal; cbn; unfold mult; cbn; unfold Rdiv; ring). apply (is_derive_ext (fun z => scal (ckm * gyr) (IT w z))); [intros t; change (ckm * gyr * IT w t = D w 3 t); rewrite D3; ring|]. apply is_derive_scal. apply IT_derive; auto.
Qed.
Print Assumptions C42_integrals.
(** Comoving and luminosity distance and lookback time increase strictly with redshift, so does the distance modulus. *)
Theorem C42_increasing : forall w, physical w -> (forall t x y, t = 0%nat \/ t = 1%nat \/ t = 3%nat -> 0 <= x -> x < y -> D w t x < D w t y) /\ (forall x y, 0 < x -> x < y -> D w 4 x < D w 4 y).
Proof.
  intros w P. split; [intros t x y T; apply D_incr; auto|]. intros x y Hx Hxy. rewrite !D4. pose proof (D_incr w P 1 ltac:(auto) x y ltac:(lra) Hxy) as A. pose proof (D_incr w P 1 ltac:(auto) 0 x ltac:(lra) Hx) as B. rewrite D_0 in B by auto.
  assert (0 < 10 ^ 6) as M by (apply pow_lt; lra). assert (ln (D w 1 x * 10 ^ 6) < ln (D w 1 y * 10 ^ 6)) as C. { apply ln_increasing; [apply Rmult_lt_0_compat; auto|]. apply Rmult_lt_compat_r; auto. }
  assert (0 < ln 10) as L by (rewrite <- ln_1; apply ln_increasing; lra). apply Rplus_lt_compat_r, Rmult_lt_compat_l; [lra|]. unfold Rdiv. apply Rmult_lt_compat_r; [apply Rinv_0_lt_compat; auto|auto].
Qed.
Print Assumptions C42_increasing.
(** How the distances are related; the sine and hyperbolic sine are the curved-space formulas. *)
Theorem C42_relations : forall w z, physical w -> 0 <= z ->
  D w 1 z = (1 + z) * D w 0 z /\ D w 4 z = 5 * (ln (D w 1 z * 10 ^ 6) / ln 10) - 5 /\
  (omegaK w = 0 -> D w 2 z = D w 0 z / (1 + z) /\ D w 1 z = (1 + z) ^ 2 * D w 2 z) /\
  (omegaK w < 0 -> let k := Hub w / ckm * sqrt (- omegaK w) in D w 2 z = sin (k * D w 0 z) / k / (1 + z)) /\
  (0 < omegaK w -> let k := Hub w / ckm * sqrt (omegaK w) in D w 2 z = sinh (k * D w 0 z) / k / (1 + z)) /\ zdist w 5 z = Raise KeyError.
Proof.
  intros w z P Hz0. pose proof ckm_pos as Hc. assert (D w 1 z = (1 + z) * D w 0 z) as A by (rewrite D1, D0; field; lra). assert (1 - omegaM w - omegaL w - omegaR w = omegaK w) as Ke by (unfold omegaK; ring).
  assert (D w 2 z = angular w (1 / (z + 1)) (IC w z)) as D2 by reflexivity. assert (0 < Hub w) as HH by apply P. unfold angular in D2. cbv zeta in D2. rewrite Ke in D2.
  split; [auto|]. split; [apply D4|]. split; [|split; [|split; [|reflexivity]]].
  - intros K. destruct (Req_EM_T (omegaK w) 0) as [_|N]; [|congruence]. rewrite A, D2, D0. split; field; lra.
  - intros K k. destruct (Req_EM_T (omegaK w) 0) as [N|_]; [lra|]. destruct (Rlt_dec (omegaK w) 0) as [_|N]; [|lra]. pose proof (sqrt_lt_R0 (- omegaK w) ltac:(lra)) as S. rewrite D2, D0. replace (k * (ckm * IC w z)) with (Hub w * sqrt (- omegaK w) * IC w z) by (unfold k; field; lra). unfold k. field. repeat split; lra.
  - intros K k. destruct (Req_EM_T (omegaK w) 0) as [N|_]; [lra|]. destruct (Rlt_dec (omegaK w) 0) as [N|_]; [lra|]. pose proof (sqrt_lt_R0 (omegaK w) ltac:(lra)) as S. rewrite D2, D0. replace (k * (ckm * IC w z)) with (Hub w * sqrt (omegaK w) * IC w z) by (unfold k; field; lra). unfold k. field. repeat split; lra.
Qed.
Print Assumptions C42_relations.
(** In every curved universe the luminosity distance (comoving times 1+z, without the curvature) disagrees with (1+z)^2 times the angular diameter distance. *)
Lemma sinh_gt x : 0 < x -> x < sinh x.
Proof.
  intros Hx. destruct (MVT_gen (fun x => sinh x - x) 0 x (fun x => cosh x - 1)) as (y & Hy & E).
  - intros t _. unfold sinh, cosh. auto_derive; [auto|]. lra.
  - intros t _. apply continuity_pt_filterlim, (ex_derive_continuous (fun x => sinh x - x)). unfold sinh. auto_derive. auto.
  - rewrite Rmin_left, Rmax_right in Hy by lra. rewrite sinh_0 in E. assert (1 <= cosh y) as C. { unfold cosh. pose proof (exp_pos y). rewrite exp_Ropp. assert (0 <= (exp y - 1) ^ 2 / exp y) as Q by (apply Rmult_le_pos; [apply pow2_ge_0|left; apply Rinv_0_lt_compat; auto]). replace ((exp y - 1) ^ 2 / exp y) with (exp y + / exp y - 2) in Q by (field; lra). lra. }
    assert (sinh x - x <> 0 \/ sinh x = x) as [N|N] by (destruct (Req_dec (sinh x) x); [right; auto|left; lra]); [nra|].
    (* equality: then compare at x/2 *)
    exfalso. destruct (MVT_gen (fun x => sinh x - x) (x / 2) x (fun x => cosh x - 1)) as (u & Hu & F).
    { intros t _. unfold sinh, cosh. auto_derive; [auto|]. lra. }
    { intros t _. apply continuity_pt_filterlim, (ex_derive_continuous (fun x => sinh x - x)). unfold sinh. auto_derive. auto. }
    rewrite Rmin_left, Rmax_right in Hu by lra. assert (1 < cosh u) as Cu.
    { unfold cosh. pose proof (exp_pos u). rewrite exp_Ropp. assert (1 < exp u) by (rewrite <- exp_0; apply exp_increasing; lra). assert (0 < (exp u - 1) ^ 2 / exp u) as Q by (apply Rdiv_lt_0_compat; [apply pow_lt; lra|auto]). replace ((exp u - 1) ^ 2 / exp u) with (exp u + / exp u - 2) in Q by (field; lra). lra. }
    destruct (MVT_gen (fun x => sinh x - x) 0 (x / 2) (fun x => cosh x - 1)) as (v & Hv & G).
    { intros t _. unfold sinh, cosh. auto_derive; [auto|]. lra. }
    { intros t _. apply continuity_pt_filterlim, (ex_derive_continuous (fun x => sinh x - x)). unfold sinh. auto_derive. auto. }
    rewrite Rmin_left, Rmax_right in Hv by lra. rewrite sinh_0 in G. assert (1 <= cosh v) as Cv. { unfold cosh. pose proof (exp_pos v). rewrite exp_Ropp. assert (0 <= (exp v - 1) ^ 2 / exp v) as Q by (apply Rmult_le_pos; [apply pow2_ge_0|left; apply Rinv_0_lt_compat; auto]). replace ((exp v - 1) ^ 2 / exp v) with (exp v + / exp v - 2) in Q by (field; lra). lra. }
    nra.
Qed.

Theorem C42_etherington_refuted : forall w z, physical w -> 0 < z -> omegaK w <> 0 -> D w 1 z <> (1 + z) ^ 2 * D w 2 z.
Proof.
  intros w z P Hz0 K Q. pose proof ckm_pos as Hc. assert (0 < Hub w) as HH by apply P. destruct (C42_relations w z P ltac:(lra)) as (A & _ & _ & B & C & _). pose proof (D_incr w P 0 ltac:(auto) 0 z ltac:(lra) Hz0) as E. rewrite D_0 in E by auto. rewrite A in Q. assert (0 < Hub w / ckm) as HK by (apply Rdiv_lt_0_compat; auto).
  destruct (Rlt_dec (omegaK w) 0) as [N|N].
  - specialize (B N). cbv zeta in B. pose proof (sqrt_lt_R0 (- omegaK w) ltac:(lra)) as S. set (k := Hub w / ckm * sqrt (- omegaK w)) in *. assert (0 < k) as Pk by (apply Rmult_lt_0_compat; auto). rewrite B in Q. assert (k * D w 0 z = sin (k * D w 0 z)) as X. { apply Rmult_eq_reg_r with ((1 + z) / k); [|apply Rgt_not_eq, Rdiv_lt_0_compat; lra]. transitivity ((1 + z) * D w 0 z); [field; lra|]. rewrite Q. field. lra. }
    pose proof (sin_lt_x (k * D w 0 z) ltac:(apply Rmult_lt_0_compat; auto)). lra.
  - specialize (C ltac:(lra)). cbv zeta in C. pose proof (sqrt_lt_R0 (omegaK w) ltac:(lra)) as S. set (k := Hub w / ckm * sqrt (omegaK w)) in *. assert (0 < k) as Pk by (apply Rmult_lt_0_compat; auto). rewrite C in Q. assert (k * D w 0 z = sinh (k * D w 0 z)) as X. { apply Rmult_eq_reg_r with ((1 + z) / k); [|apply Rgt_not_eq, Rdiv_lt_0_compat; lra]. transitivity ((1 + z) * D w 0 z); [field; lra|]. rewrite Q. field. lra. }
    pose proof (sinh_gt (k * D w 0 z) ltac:(apply Rmult_lt_0_compat; auto)). lra.
Qed.
Print Assumptions C42_etherington_refuted.

(** closed forms: Einstein-de Sitter, de Sitter, Milne *)
Lemma unique_D w F z : physical w -> 0 <= z -> F 0 = 0 -> (forall x, 0 <= x -> is_derive F x (ckm / Hz w x)) -> D w 0 z = F z.
Proof.
  intros P Hz0 F0 HF. destruct (C42_integrals w P) as (Z & _ & HD). assert (D w 0 0 = 0) as Z0 by (unfold D; rewrite Z; auto). destruct Hz0 as [Hz0| <-]; [|congruence].
  assert ((fun x => D w 0 x - F x) 0 = (fun x => D w 0 x - F x) z) as E. { apply (eq_is_derive (fun x : R => D w 0 x - F x : R) 0 z); [|auto]. intros t Ht. replace (zero : R_NormedModule) with (minus (ckm / Hz w t) (ckm / Hz w t) : R_NormedModule) by (change (ckm / Hz w t - ckm / Hz w t = 0); ring). apply (is_derive_minus (D w 0) F); [apply HD|apply HF]; lra. }
  cbn beta in E. lra.
Qed.
Lemma physical_intro h r m l : 0 < h -> 0 <= r -> 0 <= m -> 0 <= l -> 0 <= 1 - r - m - l -> physical (FRW h r m l).
Proof.
  intros Hh Hr Hm Hl Hk. split; [auto|]. intros z Hz0. unfold E2. cbn [omegaR omegaM omegaL]. assert (1 <= 1 + z) as A by lra. assert (forall n, 1 <= (1 + z) ^ n) as B by (intros; apply pow_R1_Rle; auto).
  pose proof (B 2%nat) as B2. pose proof (B 3%nat) as B3. pose proof (B 4%nat) as B4. set (k := 1 - r - m - l) in *. assert (r + m + l + k = 1) as S by (unfold k; ring). clearbody k.
  assert (r * 1 <= r * (1 + z) ^ 4) by (apply Rmult_le_compat_l; auto). assert (m * 1 <= m * (1 + z) ^ 3) by (apply Rmult_le_compat_l; auto). assert (k * 1 <= k * (1 + z) ^ 2) by (apply Rmult_le_compat_l; auto). lra.
Qed.
Theorem C42_closed_forms : forall h z, 0 < h -> 0 <= z ->
  D (FRW h 0 1 0) 0 z = 2 * ckm / h * (1 - 1 / sqrt (1 + z)) /\ D (FRW h 0 0 1) 0 z = ckm / h * z /\ D (FRW h 0 0 0) 0 z = ckm / h * ln (1 + z).
Proof.
  intros h z Hh Hz0. split; [|split].
  - apply (unique_D (FRW h 0 1 0) (fun z => 2 * ckm / h * (1 - 1 / sqrt (1 + z)))); auto; [apply physical_intro; lra| |].
    + replace (1 + 0) with 1 by ring. rewrite sqrt_1. field. lra.
    + intros x Hx. rewrite Hz_E2 by lra. cbn [Hub]. replace (E2 (FRW h 0 1 0) x) with ((1 + x) ^ 2 * (1 + x)) by (unfold E2; cbn [omegaR omegaM omegaL]; ring). rewrite sqrt_mult by (try apply pow2_ge_0; lra). rewrite sqrt_pow2 by lra. pose proof (sqrt_lt_R0 (1 + x) ltac:(lra)) as S. auto_derive; [split; [lra|]; split; [apply Rgt_not_eq; auto|auto]|]. set (s := sqrt (1 + x)) in *. assert (s * s = 1 + x) as Q by (apply sqrt_sqrt; lra). rewrite <- Q. field. repeat split; lra.
  - apply (unique_D (FRW h 0 0 1) (fun z => ckm / h * z)); auto; [apply physical_intro; lra|ring|].
    intros x Hx. rewrite Hz_E2 by lra. cbn [Hub]. replace (E2 (FRW h 0 0 1) x) with 1 by (unfold E2; cbn [omegaR omegaM omegaL]; ring). rewrite sqrt_1. auto_derive; [auto|]. field. lra.
  - apply (unique_D (FRW h 0 0 0) (fun z => ckm / h * ln (1 + z))); auto; [apply physical_intro; lra|replace (1 + 0) with 1 by ring; rewrite ln_1; ring|].
    intros x Hx. rewrite Hz_E2 by lra. cbn [Hub]. replace (E2 (FRW h 0 0 0) x) with ((1 + x) ^ 2) by (unfold E2; cbn [omegaR omegaM omegaL]; ring). rewrite sqrt_pow2 by lra. auto_derive; [lra|]. field. lra.
Qed.
Print Assumptions C42_closed_forms.

(** normed=z0 divides by the distance at z0, a negative disttype only flips the sign, and zerr gives the differences to z+zerr and z-zerr, which are
    not negative for the increasing distances. *)
Theorem C42_normed_errors : forall w t z, physical w -> t = 0%nat \/ t = 1%nat \/ t = 3%nat -> 0 <= z ->
  (forall nz, 0 < nz -> zdist_full w false t (Some nz) false None z = Ok (D w t z / D w t nz, None) /\ zdist_full w false t (Some nz) false None nz = Ok (1, None)) /\
  (forall n k, exists d, zdist_full w true t n k None z = match zdist_full w false t n k None z with Ok _ => Ok (- d, None) | r => r end /\ (forall x y, zdist_full w false t n k None z = Ok (x, y) -> x = d)) /\
  (forall e k, 0 <= e <= z -> exists u l, zdist_full w false t None false (Some e) z = Ok (D w t z, Some (u, l)) /\ 0 <= u /\ 0 <= l /\ D w t z + u = D w t (z + e) /\ D w t z - l = D w t (z - e) /\
     zdist_full w false t None k None z = Ok (D w t z, None)).
Proof.
  intros w t z P T Hz0. assert (forall x, zdist w t x = Ok (D w t x)) as Q by (destruct T as [->|[->| ->]]; reflexivity). split; [|split].
  - intros nz Hn. unfold zdist_full. rewrite !Q. cbn [bindr]. assert (0 < D w t nz) as Hp by (rewrite <- (D_0 w t T); apply D_incr; auto; lra). split; do 2 f_equal; field; lra.
  - intros n k. unfold zdist_full. rewrite !Q. cbn [bindr]. destruct n as [nz|]; [destruct k; [exists 0; split; [reflexivity|discriminate]|]|]; rewrite ?Q; cbn [bindr].
    + exists (1 / D w t nz * D w t z). split; [do 2 f_equal; ring|]. intros x y E. congruence.
    + exists (1 * D w t z). split; [do 2 f_equal; ring|]. intros x y E. congruence.
  - intros e k He. unfold zdist_full. rewrite !Q. cbn [bindr]. exists (1 * (D w t (z + e) - D w t z)), (1 * (D w t z - D w t (z - e))). split; [do 2 f_equal; ring|]. split; [|split; [|split; [ring|split; [ring|do 2 f_equal; ring]]]].
    + destruct He as ([He| <-] & _); [pose proof (D_incr w P t T z (z + e) ltac:(lra) ltac:(lra)); lra|replace (z + 0) with z by ring; lra].
    + destruct He as ([He| <-] & He2); [pose proof (D_incr w P t T (z - e) z ltac:(lra) ltac:(lra)); lra|replace (z - 0) with z by ring; lra].
Qed.
Print Assumptions C42_normed_errors.
(** Any intkwargs together with zerr or a number for normed: the call fails. *)
Theorem C42_intkwargs_refuted : forall w flip t z e nz, (t <= 4)%nat -> zdist_full w flip t None true (Some e) z = Raise TypeError /\ zdist_full w flip t (Some nz) true None z = Raise TypeError.
Proof. intros w flip t z e nz T. destruct t as [|[|[|[|[|t]]]]]; [..|lia]; split; reflexivity. Qed.
Print Assumptions C42_intkwargs_refuted.

(** ** cosmo_dist_to_z *)
(** what brenth guarantees: a continuous function with a change of sign gets a point within tol of a root; without one, ValueError *)
Definition brenth_ok (tol : R) (brenth : (R -> R) -> R -> R -> @res R) : Prop := forall f a b, a <= b -> (forall x, a <= x <= b -> continuity_pt f x) ->
  (f a * f b <= 0 -> exists x r, brenth f a b = Ok x /\ a <= r <= b /\ f r = 0 /\ Rabs (x - r) <= tol) /\ (0 < f a * f b -> brenth f a b = Raise ValueError).
Lemma maxzs_spec m : In m maxzs -> 1 <= m <= 10 ^ 256.
Proof. unfold maxzs. intros H. apply in_map_iff in H. destruct H as (k & <- & H). apply in_seq in H. split; [apply pow_R1_Rle; lra|]. apply Rle_pow; [lra|]. replace 256%nat with (4 * 2 ^ 6)%nat by reflexivity. apply Nat.mul_le_mono_l, Nat.pow_le_mono_r; lia. Qed.
Lemma find_max_none dist d l : find_max dist d l = None <-> (forall m, In m l -> dist m < d).
Proof.
  induction l as [|m l IH]; cbn [find_max]; [split; [intros _ m []|auto]|]. destruct (Rlt_dec 0 (d - dist m)) as [H|H].
  - rewrite IH. split; intros A m' Hm; [destruct Hm as [<-|Hm]; [lra|auto]|apply A; right; auto].
  - split; [discriminate|]. intros A. specialize (A m (or_introl eq_refl)). lra.
Qed.
Lemma find_max_some dist d l m : find_max dist d l = Some m -> In m l /\ d <= dist m.
Proof. induction l as [|m' l IH]; cbn [find_max]; [discriminate|]. destruct (Rlt_dec 0 (d - dist m')) as [H|H]; [intros E; destruct (IH E); split; [right|]; auto|]. intros E. injection E as ->. split; [left; auto|lra]. Qed.
Lemma last_maxz : In (10 ^ 256) maxzs.
Proof. unfold maxzs. apply in_map_iff. exists 6%nat. split; [reflexivity|apply in_seq; lia]. Qed.
Lemma dist_to_z_spec w t tol brenth d : physical w -> t = 0%nat \/ t = 1%nat \/ t = 3%nat -> brenth_ok tol brenth ->
  (d < 0 -> dist_to_z brenth (D w t) d = Raise ValueError) /\ (D w t (10 ^ 256) < d -> dist_to_z brenth (D w t) d = Raise ValueError) /\
  (0 <= d <= D w t (10 ^ 256) -> exists x r, dist_to_z brenth (D w t) d = Ok x /\ 0 <= r <= 10 ^ 256 /\ D w t r = d /\ Rabs (x - r) <= tol).
Proof.
  intros P T B. assert (forall m, 0 <= m -> forall x, 0 <= x <= m -> continuity_pt (fun z => d - D w t z) x) as C. { intros m Hm x Hx. apply continuity_pt_minus; [apply continuity_pt_const; intros a b; auto|]. apply D_cont; auto. lra. }
  assert (forall x, 1 <= x -> 0 < D w t x) as Pos by (intros x Hx; rewrite <- (D_0 w t T); apply D_incr; auto; lra). unfold dist_to_z. split; [|split].
  - intros Hd. destruct (find_max (D w t) d maxzs) as [m|] eqn:F; [|reflexivity]. apply find_max_some in F. destruct F as (F & _). apply maxzs_spec in F. destruct (B (fun z => d - D w t z) 0 m ltac:(lra) (C m ltac:(lra))) as (_ & B2). apply B2. rewrite D_0 by auto. specialize (Pos m ltac:(lra)). nra.
  - intros Hd. assert (find_max (D w t) d maxzs = None) as ->; [|reflexivity]. apply find_max_none. intros m Hm. apply maxzs_spec in Hm. destruct Hm as (Hm1 & [Hm2| ->]); [|auto]. pose proof (D_incr w P t T m (10 ^ 256) ltac:(lra) Hm2). lra.
  - intros Hd. destruct (find_max (D w t) d maxzs) as [m|] eqn:F.
    + apply find_max_some in F. destruct F as (F & G). apply maxzs_spec in F. destruct (B (fun z => d - D w t z) 0 m ltac:(lra) (C m ltac:(lra))) as (B1 & _). destruct B1 as (x & r & B1 & B2 & B3 & B4); [rewrite D_0 by auto; nra|]. exists x, r. split; [auto|]. split; [lra|]. split; [lra|auto].
    + exfalso. pose proof (proj1 (find_max_none _ _ _) F _ last_maxz). lra.
Qed.
(** For comoving and luminosity distance and lookback time, up to redshift 10^256: the redshift of the distance at z is z, to the tolerance; a distance that
    is negative or beyond raises ValueError, and any other distance gets a redshift within the tolerance of one at that distance. *)
Theorem C42_round_trip : forall w t tol brenth, physical w -> t = 0%nat \/ t = 1%nat \/ t = 3%nat -> brenth_ok tol brenth ->
  (forall z, 0 <= z <= 10 ^ 256 -> exists x, dist_to_z brenth (D w t) (D w t z) = Ok x /\ Rabs (x - z) <= tol) /\
  (forall d, d < 0 \/ D w t (10 ^ 256) < d -> dist_to_z brenth (D w t) d = Raise ValueError) /\
  (forall d, 0 <= d <= D w t (10 ^ 256) -> exists x r, dist_to_z brenth (D w t) d = Ok x /\ 0 <= r /\ D w t r = d /\ Rabs (x - r) <= tol).
Proof.
  intros w t tol brenth P T B. split; [|split].
  - intros z Hz0. destruct (dist_to_z_spec w t tol brenth (D w t z) P T B) as (_ & _ & S). destruct S as (x & r & S1 & S2 & S3 & S4).
    + split; [destruct (proj1 Hz0) as [H| <-]; [rewrite <- (D_0 w t T) at 1; left; apply D_incr; auto; lra|rewrite D_0; auto; lra]|]. destruct (proj2 Hz0) as [H| ->]; [left; apply D_incr; auto; lra|lra].
    + exists x. split; [auto|]. assert (r = z) as ->; [|auto]. destruct (Rtotal_order r z) as [L|[L|L]]; [|auto|]; exfalso; [pose proof (D_incr w P t T r z ltac:(lra) L)|pose proof (D_incr w P t T z r ltac:(lra) L)]; lra.
  - intros d [Hd|Hd]; destruct (dist_to_z_spec w t tol brenth d P T B) as (S1 & S2 & _); auto.
  - intros d Hd. destruct (dist_to_z_spec w t tol brenth d P T B) as (_ & _ & S). destruct (S Hd) as (x & r & S1 & S2 & S3 & S4). exists x, r. repeat split; auto. lra.
Qed.
Print Assumptions C42_round_trip.
(** Angular diameter distance: the search for an upper redshift fails for distances that do occur, here z=1 in Einstein-de Sitter. *)
Theorem C42_angular_refuted : forall h brenth, 0 < h -> let w := FRW h 0 1 0 in 0 < D w 2 1 /\ dist_to_z brenth (D w 2) (D w 2 1) = Raise ValueError.
Proof.
  intros h brenth Hh w. pose proof ckm_pos as Hc. assert (forall z, 0 <= z -> D w 2 z = 2 * ckm / h * (1 - 1 / sqrt (1 + z)) / (1 + z)) as A.
  { intros z Hz0. assert (physical w) as P by (apply physical_intro; lra). destruct (C42_relations w z P Hz0) as (_ & _ & B & _). destruct B as (B & _); [unfold omegaK, w; cbn [omegaR omegaM omegaL]; ring|]. rewrite B. unfold w. rewrite (proj1 (C42_closed_forms h z Hh Hz0)). reflexivity. }
  assert (0 < 2 * ckm / h) as K by (apply Rdiv_lt_0_compat; lra). assert (sqrt (1 + 1) * sqrt (1 + 1) = 2) as S2 by (rewrite sqrt_sqrt; lra). assert (14 / 10 < sqrt (1 + 1)) as L by (assert (0 <= sqrt (1 + 1)) by apply sqrt_pos; nra).
  assert (2 / 7 <= 1 - 1 / sqrt (1 + 1)) as M. { assert (1 / sqrt (1 + 1) <= 5 / 7); [|lra]. apply Rmult_le_reg_r with (sqrt (1 + 1)); [lra|]. unfold Rdiv at 1. rewrite Rmult_assoc, Rinv_l; lra. }
  assert (2 * ckm / h * (1 / 7) <= D w 2 1) as N. { rewrite A by lra. unfold Rdiv at 3. rewrite Rmult_assoc. apply Rmult_le_compat_l; lra. }
  split; [apply Rlt_le_trans with (2 * ckm / h * (1 / 7)); [apply Rmult_lt_0_compat; lra|auto]|]. unfold dist_to_z.
  assert (find_max (D w 2) (D w 2 1) maxzs = None) as ->; [|reflexivity]. apply find_max_none. intros m Hm. apply Rlt_le_trans with (2 * ckm / h * (1 / 7)); [|auto].
  assert (10 ^ 4 <= m) as Hm4. { unfold maxzs in Hm. apply in_map_iff in Hm. destruct Hm as (k & <- & _). apply Rle_pow; [lra|]. pose proof (Nat.pow_nonzero 2 k). lia. } assert (10000 <= m) by lra. rewrite A by lra.
  unfold Rdiv at 1. rewrite Rmult_assoc. apply Rmult_lt_compat_l; [auto|]. assert (0 < 1 / sqrt (1 + m)) as Q by (apply Rdiv_lt_0_compat; [lra|apply sqrt_lt_R0; lra]).
  apply Rmult_lt_reg_r with (1 + m); [lra|]. rewrite Rmult_assoc, Rinv_l by lra. lra.
Qed.
Print Assumptions C42_angular_refuted.

(** the hypothesis on brenth asks for something that exists *)
Example brenth_answer : forall tol f a b, 0 <= tol -> a <= b -> continuity f -> f a * f b <= 0 -> exists x r, a <= r <= b /\ f r = 0 /\ Rabs (x - r) <= tol.
Proof. intros tol f a b Ht Hab C S. destruct (IVT_cor f a b C Hab S) as (r & Hr & E). exists r, r. repeat split; try lra; auto. replace (r - r) with 0 by ring. rewrite Rabs_R0. auto. Qed.

(** ** z=None: the iteration towards large redshifts ends if there is matter or radiation *)
Lemma low_bound w : physical w -> 0 < omegaR w \/ 0 < omegaM w -> exists m, 0 < m /\ forall a, 0 < a <= 1 -> m * a <= H2a4 w a.
Proof.
  intros P RM. assert (forall g : R -> R, (forall x, ex_derive g x) -> (forall x, 0 <= x <= 1 -> 0 < g x) -> exists m, 0 < m /\ forall x, 0 <= x <= 1 -> m <= g x) as Min.
  { intros g Dg Pg. destruct (continuity_ab_min g 0 1 ltac:(lra)) as (x & Hx & H01). { intros c _. apply continuity_pt_filterlim, (ex_derive_continuous g), Dg. } exists (g x). split; auto. }
  assert (H2a4 w 0 = omegaR w) as Z by (unfold H2a4; ring). destruct (Rlt_dec 0 (omegaR w)) as [R|R].
  - destruct (Min (H2a4 w)) as (m & Hm & Hmin). { intros x. unfold H2a4. auto_derive. auto. } { intros x ([Hx| <-] & Hx1); [apply H2a4_pos; auto|lra]. }
    exists m. split; [auto|]. intros a Ha. specialize (Hmin a ltac:(lra)). nra.
  - destruct RM as [RM|RM]; [lra|]. assert (omegaR w = 0) as R0.
    { destruct (Req_dec (omegaR w) 0) as [|N]; [auto|]. exfalso. destruct (H2a4_cont w 0 (fun y => y < 0)) as (e & He).
      { exists (mkposreal (- omegaR w) ltac:(lra)). intros y Hy. apply Rabs_def2 in Hy. unfold minus, plus, opp in Hy. cbn [AbelianGroup.plus AbelianGroup.opp R_AbelianGroup] in Hy. cbn in Hy. fold (H2a4 w 0) in Hy. rewrite Z in Hy. lra. }
      pose proof (cond_pos e) as Pe. set (x := Rmin (e / 2) 1). assert (0 < x) as X by (apply Rmin_glb_lt; lra). assert (x <= 1) by apply Rmin_r. assert (x <= e / 2) by apply Rmin_l. pose proof (H2a4_pos w x P ltac:(lra)). assert (H2a4 w x < 0); [|lra]. apply He. apply Rabs_def1; unfold minus, plus, opp; cbn; lra. }
    destruct (Min (fun a => omegaM w + omegaL w * a ^ 3 + (1 - omegaM w - omegaL w - omegaR w) * a)) as (m & Hm & Hmin). { intros x. auto_derive. auto. }
    { intros x ([Hx| <-] & Hx1); [|lra]. pose proof (H2a4_pos w x P ltac:(lra)) as Hp. unfold H2a4 in Hp. rewrite R0 in *. apply Rmult_lt_reg_l with x; [auto|]. lra. }
    exists m. split; [auto|]. intros a Ha. specialize (Hmin a ltac:(lra)). unfold H2a4. rewrite R0 in *. replace (0 + omegaM w * a + omegaL w * a ^ 4 + (1 - omegaM w - omegaL w - 0) * a ^ 2) with ((omegaM w + omegaL w * a ^ 3 + (1 - omegaM w - omegaL w - 0) * a) * a) by ring. apply Rmult_le_compat_r; lra.
Qed.
Lemma IC_bounded w : physical w -> 0 < omegaR w \/ 0 < omegaM w -> exists B, forall z, 0 <= z -> IC w z <= B /\ IT w z <= B.
Proof.
  intros P RM. destruct (low_bound w P RM) as (m & Hm & Lb). assert (0 < Hub w) as HH by apply P. pose proof (sqrt_lt_R0 m Hm) as Sm. set (k := 2 / (Hub w * sqrt m)). exists k. intros z Hz0.
  assert (forall c, 0 <= c -> 0 < Hz w c /\ / Hz w c <= k / 2 * / ((1 + c) * sqrt (1 + c))) as Hb.
  { intros c Hc. rewrite Hz_E2 by lra. pose proof (proj2 P c Hc) as PE. pose proof (sqrt_lt_R0 _ PE) as SE. split; [apply Rmult_lt_0_compat; auto|]. assert (m * (1 + c) ^ 3 <= E2 w c) as Q.
    { specialize (Lb (1 / (c + 1)) (a0_range c Hc)). rewrite H2a4_E2 in Lb by (apply a0_range; auto). replace (1 / (1 / (c + 1)) - 1) with c in Lb by (field; lra). apply Rmult_le_compat_r with (r := (1 + c) ^ 4) in Lb; [|apply pow_le; lra]. replace (m * (1 / (c + 1)) * (1 + c) ^ 4) with (m * (1 + c) ^ 3) in Lb by (field; lra). replace ((1 / (c + 1)) ^ 4 * E2 w c * (1 + c) ^ 4) with (E2 w c) in Lb by (field; lra). auto. }
    pose proof (sqrt_lt_R0 (1 + c) ltac:(lra)) as Sc. unfold k. replace (2 / (Hub w * sqrt m) / 2 * / ((1 + c) * sqrt (1 + c))) with (/ (Hub w * (sqrt m * ((1 + c) * sqrt (1 + c))))) by (field; repeat split; lra).
    apply Rinv_le_contravar; [repeat apply Rmult_lt_0_compat; lra|]. apply Rmult_le_compat_l; [lra|]. replace ((1 + c) * sqrt (1 + c)) with (sqrt ((1 + c) ^ 2 * (1 + c))) by (rewrite sqrt_mult, sqrt_pow2 by (try apply pow2_ge_0; lra); reflexivity). rewrite <- sqrt_mult; [|lra|apply Rmult_le_pos; [apply pow2_ge_0|lra]]. apply sqrt_le_1_alt. replace (m * ((1 + c) ^ 2 * (1 + c))) with (m * (1 + c) ^ 3) by ring. auto. }
  assert (forall (J dJ : R -> R), J 0 = 0 -> (forall c, 0 <= c -> is_derive J c (dJ c)) -> (forall c, 0 <= c -> dJ c <= / Hz w c) -> J z <= k) as Main.
  { intros J dJ J0 HJ Hle. destruct (MVT_gen (fun x => J x + k / sqrt (1 + x)) 0 z (fun x => dJ x - k / 2 * / ((1 + x) * sqrt (1 + x)))) as (c & Hc & E).
    - intros x Hx. rewrite Rmin_left, Rmax_right in Hx by lra. pose proof (sqrt_lt_R0 (1 + x) ltac:(lra)) as Sx. apply (is_derive_plus J (fun x => k / sqrt (1 + x))); [apply HJ; lra|]. auto_derive; [repeat split; lra|]. set (q := sqrt (1 + x)) in *. assert (q * q = 1 + x) as Q by (apply sqrt_sqrt; lra). rewrite <- Q. field. lra.
    - intros x Hx. rewrite Rmin_left, Rmax_right in Hx by lra. pose proof (sqrt_lt_R0 (1 + x) ltac:(lra)) as Sx. apply continuity_pt_filterlim, (ex_derive_continuous (fun x => J x + k / sqrt (1 + x))). apply (ex_derive_plus J (fun x => k / sqrt (1 + x))); [eexists; apply HJ; lra|]. auto_derive. repeat split; lra.
    - rewrite Rmin_left, Rmax_right in Hc by lra. rewrite J0 in E. replace (1 + 0) with 1 in E by ring. rewrite sqrt_1 in E. pose proof (sqrt_lt_R0 (1 + z) ltac:(lra)) as Sz. assert (0 < k / sqrt (1 + z)). { apply Rdiv_lt_0_compat; [|auto]. apply Rdiv_lt_0_compat; [lra|apply Rmult_lt_0_compat; auto]. }
      pose proof (Hle c ltac:(lra)). pose proof (proj2 (Hb c ltac:(lra))). assert ((dJ c - k / 2 * / ((1 + c) * sqrt (1 + c))) * (z - 0) <= 0) by (apply Rmult_le_0_r; lra). lra. }
  split.
  - apply (Main (IC w) (fun c => / Hz w c)); [apply IC0|apply IC_derive; auto|intros; lra].
  - apply (Main (IT w) (fun c => / ((1 + c) * Hz w c))); [apply IT0|apply IT_derive; auto|]. intros c Hc. destruct (Hb c Hc) as (Hp & _). apply Rinv_le_contravar; [auto|]. nra.
Qed.
Lemma loop_none dist tol : 0 <= tol -> (forall x y, 0 <= x -> x < y -> dist x < dist y) -> forall n z last, 0 < z -> zmax_loop (S n) dist tol z last (dist z) = None -> dist z + INR n * tol <= dist (z * 10 ^ n).
Proof.
  intros Ht Inc n. induction n as [|n IH]; intros z last Hz0 E.
  - cbn [INR pow]. replace (z * 1) with z by ring. lra.
  - cbn [zmax_loop] in E. destruct (Rlt_dec tol (Rabs (last - dist z))) as [_|]; [|discriminate]. specialize (IH (z * 10) (dist z) ltac:(lra) E). destruct (Rlt_dec tol (Rabs (dist z - dist (z * 10)))) as [L|]; [|discriminate].
    pose proof (Inc z (z * 10) ltac:(lra) ltac:(lra)). rewrite Rabs_left in L by lra. rewrite S_INR. cbn [pow]. replace (z * (10 * 10 ^ n)) with (z * 10 * 10 ^ n) by ring. lra.
Qed.
Lemma nat_above x : exists n, x < INR n.
Proof. exists (Z.to_nat (up x)). rewrite INR_IZR_INZ. destruct (archimed x) as (A & _). apply Rlt_le_trans with (IZR (up x)); [auto|]. apply IZR_le. lia. Qed.
Lemma loop_some dist tol n : forall z last cur v, zmax_loop n dist tol z last cur = Some v -> (v = cur /\ Rabs (last - cur) <= tol) \/ exists k, v = dist (z * 10 ^ S k) /\ ((k = 0%nat /\ Rabs (cur - v) <= tol) \/ Rabs (dist (z * 10 ^ k) - v) <= tol).
Proof.
  induction n as [|n IH]; intros z last cur v E; cbn [zmax_loop] in E; [discriminate|]. destruct (Rlt_dec tol (Rabs (last - cur))) as [L|L].
  - right. destruct (IH _ _ _ _ E) as [(-> & Q)|(k & -> & [(-> & Q)|Q])].
    + exists 0%nat. cbn [pow]. rewrite !Rmult_1_r. auto.
    + exists 1%nat. cbn [pow] in *. rewrite !Rmult_1_r in *. rewrite <- Rmult_assoc. auto.
    + exists (S k). cbn [pow] in *. replace (z * (10 * (10 * 10 ^ k))) with (z * 10 * (10 * 10 ^ k)) by ring. replace (z * (10 * 10 ^ k)) with (z * 10 * 10 ^ k) by ring. auto.
  - injection E as <-. left. split; [auto|lra].
Qed.
(** With matter or radiation, the maximum comoving distance and lookback time exist, and z=None ends, with a value that is the distance at
    some redshift 10^(7+k), below the maximum, and within the tolerance of that at a tenth of the redshift. *)
Theorem C42_maximum : forall w t tol, physical w -> t = 0%nat \/ t = 3%nat -> 0 < omegaR w \/ 0 < omegaM w -> 0 < tol ->
  exists n v k, zmax n (D w t) tol = Some v /\ v = D w t (10 ^ (7 + k)) /\ v - D w t (10 ^ (6 + k)) <= tol /\ exists B, v < B /\ forall z, 0 <= z -> D w t z < B.
Proof.
  intros w t tol P T RM Ht. pose proof ckm_pos as Hc. pose proof gyr_pos as Hg. assert (t = 0%nat \/ t = 1%nat \/ t = 3%nat) as T' by tauto. pose proof (D_incr w P t T') as Inc. destruct (IC_bounded w P RM) as (B & HB).
  assert (exists B, forall z, 0 <= z -> D w t z < B) as (B' & HB').
  { destruct T as [->| ->]; [exists (ckm * B + 1)|exists (ckm * B * gyr + 1)]; intros z Hz0; destruct (HB z Hz0) as (B1 & B2); [rewrite D0|rewrite D3].
    - assert (ckm * IC w z <= ckm * B) by (apply Rmult_le_compat_l; lra). lra.
    - assert (ckm * IT w z * gyr <= ckm * B * gyr) by (apply Rmult_le_compat_r; [lra|]; apply Rmult_le_compat_l; lra). lra. }
  assert (0 < 10 ^ 6) as P6 by (apply pow_lt; lra). destruct (nat_above ((B' - D w t (10 ^ 6)) / tol)) as (n & Hn). apply Rmult_lt_compat_r with (r := tol) in Hn; [|auto]. replace ((B' - D w t (10 ^ 6)) / tol * tol) with (B' - D w t (10 ^ 6)) in Hn by (field; lra).
  unfold zmax. destruct (zmax_loop (S n) (D w t) tol (10 ^ 6) (D w t (10 ^ 6) + 2 * tol) (D w t (10 ^ 6))) as [v|] eqn:E.
  - exists (S n), v. destruct (loop_some _ _ _ _ _ _ _ E) as [(-> & Q)|(k & -> & Q)].
    + exfalso. rewrite Rabs_right in Q by lra. lra.
    + assert (forall j, 10 ^ 6 * 10 ^ j = 10 ^ (6 + j)) as Pw by (intros j; now rewrite pow_add). exists k. split; [rewrite E; reflexivity|]. rewrite !Pw. replace (6 + S k)%nat with (7 + k)%nat by lia.
      assert (0 <= 10 ^ (6 + k)) as P1 by (apply pow_le; lra). assert (10 ^ (6 + k) < 10 ^ (7 + k)) as P2 by (apply Rlt_pow; [lra|lia]). pose proof (Inc _ _ P1 P2) as L. split; [auto|]. split.
      * rewrite !Pw in Q. replace (6 + S k)%nat with (7 + k)%nat in Q by lia. destruct Q as [(-> & Q)|Q]; [replace (6 + 0)%nat with 6%nat in * by lia|]; rewrite Rabs_left in Q by lra; lra.
      * exists B'. split; [apply HB'; lra|auto].
  - exfalso. pose proof (loop_none (D w t) tol ltac:(lra) Inc n _ _ P6 E) as L. pose proof (HB' (10 ^ 6 * 10 ^ n)) as M. assert (0 <= 10 ^ 6 * 10 ^ n) as Q by (apply Rmult_le_pos; apply pow_le; lra). specialize (M Q). lra.
Qed.
Print Assumptions C42_maximum.
Example C42_ex : physical (FRW 72 0 (3/10) (7/10)) /\ physical (FRW 72 0 (3/10) 0) /\ 0 < omegaM (FRW 72 0 (3/10) (7/10)) /\ omegaK (FRW 72 0 (3/10) 0) <> 0.
Proof. split; [apply physical_intro; lra|]. split; [apply physical_intro; lra|]. unfold omegaK. cbn. lra. Qed.
