(** * FrameEx: cases that meet the hypotheses of C121 and C122 *)
From Coq Require Import Reals ZArith Lra Lia Psatz List Bool.
From Verif Require Import PyBase RealTrig AngleModel AngleProofs SphereModel SphereProofs RotProofs SphereProps FrameModel FrameProof FrameEpoch.
Import ListNotations.
Open Scope R_scope.
Definition z0 : R -> R := fun _ => 0.
Example galactic_pole_case : exists o r, fr o = FK5 /\ ep o = Some 2000 /\ dist o = Some (10, 1) /\ dir (at_ o) = towards 192.859508 27.128336 /\ convert z0 z0 z0 z0 z0 z0 z0 z0 z0 o [GAL] = Ok r /\ dir (at_ r) = pole.
Proof.
  destruct (coord_of (towards 192.859508 27.128336)) as (c & G & D). { apply (dot_unit (27.128336 * PI / 180) (192.859508 * PI / 180)). }
  destruct (galactic_poles z0 z0 z0 z0 z0 z0 z0 z0 z0 (Obj FK5 c (Some 2000) (Some (10, 1))) G eq_refl (or_intror eq_refl)) as (r & E & _ & H & _). eexists _, r. split; [|split; [|split; [|split; [|split; [exact E|now apply H]]]]]; [reflexivity|reflexivity|reflexivity|exact D].
Qed.
(** without nutation the matrix of the celestial intermediate system exists in 2001 *)
Lemma npb_z e : cos (rad (polyval [-0.0000001274; -0.000007089; -0.04182264; -0.4294934; 2004.191903; 0] ((e - 2000) / 100) / 3600)) > 0 -> 1 + m22 (npb z0 z0 z0 e) <> 0.
Proof.
  intros Hc. assert (Nu : nutation z0 z0 z0 e = idm). { unfold nutation, z0, rotr. cbn [rotation_matrix]. rewrite Rplus_0_l, Ropp_0, sin_0, cos_0. apply mat_eq; cbn; ring. }
  unfold npb. rewrite Nu. unfold m3 at 1. rewrite mm_id_l. pose proof (precCap_orth e) as O1. pose proof frameBias_orth as O2. pose proof (row_unit _ O1) as U1. pose proof (f_equal m22 O2) as U2. cbn [mm tr idm m00 m01 m02 m10 m11 m12 m20 m21 m22] in U2.
  assert (P1 : 0 < m22 (precCap e)) by (unfold precCap; cbv zeta; unfold m3, rot; cbn [rotation_matrix mm m00 m01 m02 m10 m11 m12 m20 m21 m22]; lra).
  assert (P2 : 0 < m22 frameBias). { unfold frameBias, m3, rot. cbn [rotation_matrix mm m00 m01 m02 m10 m11 m12 m20 m21 m22]. pose proof PI_RGT_0 as P. pose proof PI_4 as P4. set (p := - (-6.8192) / 3600000) in *. set (q := -16.6170 / 3600000) in *. assert (H1 : 0 < cos (rad p)) by (apply cos_gt_0; unfold rad, p; lra). assert (H2 : 0 < cos (rad q)) by (apply cos_gt_0; unfold rad, q; lra). pose proof (Rmult_lt_0_compat _ _ H1 H2). lra. }
  cbn [mm m22]. set (a := m20 (precCap e)) in *. set (b := m21 (precCap e)) in *. set (c := m22 (precCap e)) in *. set (x := m02 frameBias) in *. set (y := m12 frameBias) in *. set (z := m22 frameBias) in *. clearbody a b c x y z. intros X. assert (Q : (a + x) * (a + x) + (b + y) * (b + y) + (c + z) * (c + z) = 0) by lra. assert (0 < (c + z) * (c + z)) by (apply Rmult_lt_0_compat; lra). pose proof (Rle_0_sqr (a + x)) as Z1. pose proof (Rle_0_sqr (b + y)) as Z2. unfold Rsqr in *. lra.
Qed.
Example cmatrix_2001 : exists m, cmatrix z0 z0 z0 z0 (Some 2001) = Ok m.
Proof.
  unfold cmatrix. cbv zeta. destruct (Req_EM_T (1 + m22 (npb z0 z0 z0 2001)) 0) as [X|]; [|eauto]. exfalso. revert X. apply npb_z. pose proof PI_RGT_0 as P. pose proof PI_4 as P4. apply cos_gt_0; unfold rad, polyval; cbn [fold_left]; lra.
Qed.
(** half a turn between 2000 and 2001 *)
Example earth_rotation_case : exists o r s s' era, fr o = GCRS /\ ep o = Some 2001 /\ convert z0 z0 z0 z0 z0 era z0 z0 z0 o [CIRS; ITRS] = Ok r /\ convert z0 z0 z0 z0 z0 era z0 z0 z0 o [CIRS] = Ok s /\ convert z0 z0 z0 z0 z0 era z0 z0 z0 s [ITRS] = Ok s' /\ dir (at_ r) <> dir (at_ s').
Proof.
  destruct cmatrix_2001 as (m & Hm). destruct (earth_rotation_refuted z0 z0 z0 z0 z0 (fun e => (e - 2000) * 90) z0 z0 z0 2001 m eq_refl eq_refl Hm) as (o & r & s & s' & A & B & _ & C & D & E & F).
  - replace ((2000 - 2000) * 90) with 0 by lra. replace (rad 0) with 0 by (unfold rad; lra). rewrite cos_0. intros X. pose proof PI_RGT_0 as P. match type of X with _ = cos (rad ?t) => assert (T : 89 < t < 91) by (unfold asecperrad; lra); assert (R : 0 < rad t < PI) by (unfold rad; nra); pose proof (cos_decreasing_1 0 (rad t)) as Cd end. rewrite cos_0 in Cd. lra.
  - exists o, r, s, s', (fun e => (e - 2000) * 90). now repeat split.
Qed.
Example equinox_case : mm (nutation z0 z0 (fun _ => 1) 2000) (nutation z0 z0 (fun _ => 1) 2000) <> idm.
Proof.
  unfold nutation, z0, rotr, m3. cbn [rotation_matrix]. rewrite Rplus_0_l, Ropp_0, sin_0, cos_0, sin_neg, cos_neg. intros X. apply (f_equal m11) in X. cbn [mm idm m00 m01 m02 m10 m11 m12 m20 m21 m22] in X. pose proof (sc1 1) as S. assert (0 < sin 1) by (apply sin_gt_0; pose proof PI2_3_2; lra). nra.
Qed.
