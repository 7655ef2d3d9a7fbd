(** * FrameVia: C122, conversions at an epoch and changes of epoch fit together *)
From Coq Require Import Reals ZArith Lra Lia Psatz List Bool.
From Verif Require Import PyBase RealTrig AngleModel AngleProofs SphereModel SphereProofs RotProofs SphereProps FrameModel FrameProof FrameEpoch FrameTie.
Import ListNotations.
Open Scope R_scope.
Section Frames.
Variables eps dpsi deps cio eqo era gst xp yp : R -> R.
Variable gcrs_to : obj -> R -> obj * @res unit.
Notation convert := (convert eps dpsi deps cio eqo era gst xp yp). Notation trans := (trans eps dpsi deps cio eqo era gst xp yp).
Notation set_epoch := (set_epoch eps dpsi deps cio eqo era gst xp yp gcrs_to). Notation epoch_rotation := (epoch_rotation eps dpsi deps cio xp yp).
(** ICRS to FK5 at an epoch is ICRS to FK5 at J2000 precessed to the epoch *)
Theorem icrs_fk5_precessed o e : good (at_ o) -> fr o = ICRS -> ep o = Some e -> exists r s t, convert o [FK5] = Ok r /\ convert (Obj ICRS (at_ o) (Some 2000) (dist o)) [FK5] = Ok s /\ set_epoch s (Some e) = (t, Ok tt) /\ ep t = ep r /\ dist t = dist r /\ dir (at_ t) = dir (at_ r).
Proof.
  intros G F E. assert (T1 : trans (fr o) FK5 (ep o) = Some (Ok (icrs_fk5 (Some e)))) by now rewrite F, E. destruct (conversion _ _ _ _ _ _ _ _ _ o FK5 _ G T1) as (r & Er & Fr & Pr & _ & _ & Dr & Qr); [rewrite F; apply not45; discriminate|].
  set (o' := Obj ICRS (at_ o) (Some 2000) (dist o)). destruct (conversion eps dpsi deps cio eqo era gst xp yp o' FK5 (icrs_fk5 (Some 2000)) G eq_refl) as (s & Es & Fs & Ps & Gs & _ & Ds & Qs); [apply not45; discriminate|].
  destruct (set_epoch_dir eps dpsi deps cio eqo era gst xp yp gcrs_to s 2000 e (precJ 2000 e) Gs Ps) as (t & Rt & Gt & Ft & Pt & Qt & Dt); [rewrite Fs; reflexivity|]. exists r, s, t. split; [exact Er|]. split; [exact Es|]. split; [exact Rt|]. split; [congruence|]. split; [rewrite Qt, Qs, Qr, F; reflexivity|]. rewrite Dt, Ds, Dr. cbn [o' at_]. unfold icrs_fk5. cbv zeta. destruct (no_precession 2000) as (-> & _). now rewrite mm_id_l, mv_mm.
Qed.
(** FK5 and FK4 to galactic coordinates at an epoch: precess to J2000, B1950 first *)
Theorem galactic_precessed o e y : good (at_ o) -> ep o = Some e -> (fr o = FK5 /\ y = 2000) \/ (fr o = FK4 /\ y = 1950) -> exists r s t, convert o [GAL] = Ok r /\ set_epoch o (Some y) = (s, Ok tt) /\ convert s [GAL] = Ok t /\ dir (at_ t) = dir (at_ r).
Proof.
  intros G E H. set (m := match fr o with FK5 => fk5_gal | _ => fk4_gal end). assert (T1 : trans (fr o) GAL (ep o) = Some (Ok (m (Some e)))) by (unfold m; rewrite E; destruct H as [(-> & _)|(-> & _)]; reflexivity). destruct (conversion _ _ _ _ _ _ _ _ _ o GAL _ G T1) as (r & Er & Fr & Pr & _ & _ & Dr & _); [apply not45r; discriminate|].
  set (p := match fr o with FK5 => precJ e y | _ => precB e y end). assert (X : epoch_rotation (fr o) e y p) by (unfold p; destruct H as [(-> & _)|(-> & _)]; reflexivity). destruct (set_epoch_dir eps dpsi deps cio eqo era gst xp yp gcrs_to o e y p G E X) as (s & Rs & Gs & Fs & Ps & _ & Ds).
  assert (T2 : trans (fr s) GAL (ep s) = Some (Ok (m (Some y)))) by (unfold m; rewrite Fs, Ps; destruct H as [(-> & _)|(-> & _)]; reflexivity). destruct (conversion _ _ _ _ _ _ _ _ _ s GAL _ Gs T2) as (t & Et & _ & _ & _ & _ & Dt & _); [apply not45r; discriminate|]. exists r, s, t. split; [exact Er|]. split; [exact Rs|]. split; [exact Et|]. rewrite Dt, Ds, Dr. unfold m, p. destruct (no_precession y) as (N1 & N2 & _). destruct H as [(-> & ->)|(-> & ->)]; unfold fk5_gal, fk4_gal; [rewrite N1|rewrite N2]; now rewrite mm_id_r, mv_mm.
Qed.
Lemma near_vec u v p q a b : scale p a = u -> scale q b = v -> 0 < p -> 0 < q -> dot a a = 1 -> dot b b = 1 -> 1 <= 2 * (p * q) -> 1 - dot (V (vx u - vx v) (vy u - vy v) (vz u - vz v)) (V (vx u - vx v) (vy u - vy v) (vz u - vz v)) <= dot a b.
Proof.
  intros <- <- P Q A B H. set (d := dot _ (V _ _ _)). assert (E : d = p * p + q * q - 2 * (p * q) * dot a b). { unfold d. replace (dot (V _ _ _) (V _ _ _)) with (p * p * dot a a + q * q * dot b b - 2 * (p * q) * dot a b) by (unfold dot, scale; cbn [vx vy vz]; ring). rewrite A, B. ring. }
  assert (L : dot a b <= 1). { destruct a as [a1 a2 a3], b as [b1 b2 b3]. unfold dot in *. cbn [vx vy vz] in *. pose proof (sq3 (a1 - b1) (a2 - b2) (a3 - b3)). lra. } pose proof (Rle_0_sqr (p - q)) as Zq. unfold Rsqr in Zq. set (k := p * q) in *. set (s := dot a b) in *. assert (p * p + q * q >= 2 * k) by (unfold k; lra). assert ((2 * k - 1) * (1 - s) >= 0) by (apply Rle_ge, Rmult_le_pos; lra). lra.
Qed.
(** FK4 to FK5 at an epoch: by B1950 to within the rates of Murray's matrix, 14 seconds of arc (1 - cos) for the years 1000 to 3000 *)
Theorem fk4_by_1950 o e : good (at_ o) -> fr o = FK4 -> ep o = Some e -> 1000 <= e <= 3000 -> exists r s t, convert o [FK5] = Ok r /\ set_epoch o (Some 1950) = (s, Ok tt) /\ convert s [FK5] = Ok t /\ 1 - 2.2e-9 <= dot (dir (at_ r)) (dir (at_ t)).
Proof.
  intros G F E Y. assert (T1 : trans (fr o) FK5 (ep o) = Some (Ok (fk4_fk5 (Some e)))) by now rewrite F, E. destruct (convert_one _ _ _ _ _ _ _ _ _ o FK5 _ G T1) as (r & Er & _ & _ & _ & Dr & _).
  destruct (set_epoch_dir eps dpsi deps cio eqo era gst xp yp gcrs_to o e 1950 (precB e 1950) G E) as (s & Rs & Gs & Fs & Ps & _ & Ds); [rewrite F; reflexivity|].
  assert (Mu : fk4_fk5 (Some 1950) = murray) by (unfold fk4_fk5; destruct (Req_EM_T 1950 1950); [reflexivity|lra]). assert (T2 : trans (fr s) FK5 (ep s) = Some (Ok murray)) by (rewrite Fs, F, Ps; cbn [FrameModel.trans]; now rewrite Mu). destruct (convert_one _ _ _ _ _ _ _ _ _ s FK5 _ Gs T2) as (t & Et & _ & _ & _ & Dt & _).
  exists r, s, t. split; [exact Er|]. split; [exact Rs|]. split; [exact Et|]. set (w := dir (at_ s)) in *.
  assert (U : dot w w = 1) by apply dot_unit. assert (X : exists T, -10 <= T <= 11 /\ mv (fk4_fk5 (Some e)) (dir (at_ o)) = mv (murrayT T) w).
  { unfold fk4_fk5. destruct (Req_EM_T e 1950) as [-> |N].
    - exists 0. split; [lra|]. rewrite Ds. destruct (no_precession 1950) as (_ & -> & _). rewrite mv_id. f_equal. apply mat_eq; unfold murrayT, murray; cbn [m00 m01 m02 m10 m11 m12 m20 m21 m22]; lra.
    - cbv zeta. eexists. split; [|rewrite mv_mm, <- Ds; reflexivity]. lra. }
  destruct X as (T & HT & X). rewrite X in Dr.
  assert (L : forall v : vec, length v * length v = dot v v) by (intros v; unfold length; apply sqrt_sqrt; apply sq3).
  assert (Pp : 0.9 <= length (mv (murrayT T) w)). { pose proof (nearly_dot _ _ w w (murrayT_near T HT) U U) as N. rewrite U, <- L in N. apply abs_between in N. assert (Z0 : 0 <= length (mv (murrayT T) w)) by apply sqrt_pos. set (x := length (mv (murrayT T) w)) in *. clearbody x. apply Rnot_lt_le. intros Z. assert (x * x <= 0.9 * 0.9) by (apply Rmult_le_compat; lra). lra. } assert (Pq : 0.9 <= length (mv murray w)). { pose proof (nearly_dot _ _ w w murray_near U U) as N. rewrite U, <- L in N. apply abs_between in N. assert (Z0 : 0 <= length (mv murray w)) by apply sqrt_pos. set (x := length (mv murray w)) in *. clearbody x. apply Rnot_lt_le. intros Z. assert (x * x <= 0.9 * 0.9) by (apply Rmult_le_compat; lra). lra. }
  eapply Rle_trans; [|apply (near_vec _ _ _ _ _ _ Dr Dt); [lra|lra|apply dot_unit|apply dot_unit|assert (0.9 * 0.9 <= length (mv (murrayT T) w) * length (mv murray w)) by (apply Rmult_le_compat; lra); lra]].
  destruct w as [a b c]. unfold dot in U. cbn [vx vy vz] in U. destruct (abs_le_1 _ _ _ U) as (A & B & C). apply abs_between in A. apply abs_between in B. apply abs_between in C. unfold murrayT, murray. cbn [mv m00 m01 m02 m10 m11 m12 m20 m21 m22 vx vy vz]. unfold dot. cbn [vx vy vz].
  assert (TA : -11 <= T * a <= 11) by (split; nra). assert (TB : -11 <= T * b <= 11) by (split; nra). assert (TC : -11 <= T * c <= 11) by (split; nra).
  match goal with |- _ <= 1 - (?x * ?x + ?y * ?y + ?z * ?z) => assert (K1 : -3.65e-5 <= x <= 3.65e-5) by (replace x with (-0.0000000026455262 * (T * a) + -0.0000011539918689 * (T * b) + 0.0000021111346190 * (T * c)) by lra; lra); assert (K2 : -1.4e-5 <= y <= 1.4e-5) by (replace y with (0.0000011540628161 * (T * a) + -0.0000000129042997 * (T * b) + 0.0000000236021478 * (T * c)) by lra; lra); assert (K3 : -2.4e-5 <= z <= 2.4e-5) by (replace z with (-0.0000021112979048 * (T * a) + -0.0000000056024448 * (T * b) + 0.0000000102587734 * (T * c)) by lra; lra); set (x' := x) in *; set (y' := y) in *; set (z' := z) in * end. clearbody x' y' z'.
  assert (0 <= (3.65e-5 - x') * (3.65e-5 + x')) by (apply Rmult_le_pos; lra). assert (0 <= (1.4e-5 - y') * (1.4e-5 + y')) by (apply Rmult_le_pos; lra). assert (0 <= (2.4e-5 - z') * (2.4e-5 + z')) by (apply Rmult_le_pos; lra). lra.
Qed.
End Frames.
