(** * EphKepler: orbital elements and anomalies (C72) *)
From Coq Require Import List Bool ZArith Reals Lra Lia Psatz.
From Verif Require Import PyBase RealTrig EphModel.
Import ListNotations.
Open Scope R_scope.

(** ** elements *)
(** c0 + c1 T + c2 T^2 + ... *)
Definition power_sum (l : list R) (T : R) : R := fold_right Rplus 0 (map (fun p => snd p * T ^ (fst p)) (combine (seq 0 (length l)) l)).
Lemma power_sum_horner l T : forall n, fold_right Rplus 0 (map (fun p => snd p * T ^ (fst p)) (combine (seq n (length l)) l)) = T ^ n * fold_right (fun c acc => acc * T + c) 0 l.
Proof. induction l as [|c l IH]; intros n; cbn [length seq combine map fold_right fst snd]; [ring|]. rewrite IH. cbn [pow]. ring. Qed.
Theorem C72_polynomial : forall l f T, makeElement (ESeq l) = Ok f -> f T = power_sum l T.
Proof.
  intros l f T H. unfold power_sum. rewrite power_sum_horner. cbn [pow]. assert (P : polyval (rev l) T = fold_right (fun c acc => acc * T + c) 0 l).
  { unfold polyval. rewrite <- fold_left_rev_right, rev_involutive. reflexivity. }
  rewrite Rmult_1_l. destruct l as [|a [|b [|c l]]]; inversion H; subst; try exact P. cbn [fold_right]. ring.
Qed.
(** the four elements of the orbit are needed *)
Definition usable (v : option elem_in) : Prop := exists x, v = Some x /\ x <> EOther.
Lemma elem_usable v : usable v <-> exists f, elem v = Ok f.
Proof.
  split.
  - intros (x & -> & N). cbn [elem]. destruct x as [f|[|a [|b [|]]]|]; cbn [makeElement]; eauto. congruence.
  - intros (f & H). destruct v as [x|]; [|discriminate]. exists x. split; trivial. intros ->. discriminate.
Qed.
Theorem C72_needed : forall a e i Lan L Lp ap M tol k, newKepler a e i Lan L Lp ap M tol = Ok k -> usable a /\ usable e /\ usable i /\ usable Lan.
Proof.
  intros a e i Lan L Lp ap M tol k. unfold newKepler. destruct a as [a|]; [|discriminate]. destruct e as [e|]; [|discriminate]. destruct i as [i|]; [|discriminate]. destruct Lan as [Lan|]; [|discriminate]. cbn [need bind].
  destruct (elem (Some a)) as [fa| |] eqn:E1; try discriminate. destruct (elem (Some e)) as [fe| |] eqn:E2; try discriminate. destruct (elem (Some i)) as [fi| |] eqn:E3; try discriminate. destruct (elem (Some Lan)) as [fl| |] eqn:E4; try discriminate. intros _. repeat split; apply elem_usable; eauto.
Qed.
(** with either pair of angles an object is made, and all four angles are consistent; both pairs at once are refused *)
Definition complete (L Lp ap M : option elem_in) : Prop := (usable L /\ usable Lp /\ ap = None /\ M = None) \/ (L = None /\ Lp = None /\ usable ap /\ usable M).
Theorem C72_angles : forall a e i Lan L Lp ap M tol, usable a -> usable e -> usable i -> usable Lan -> complete L Lp ap M -> exists k, newKepler a e i Lan L Lp ap M tol = Ok k /\
  forall t, exists l lp m w, angle_of k t AL = Ok l /\ angle_of k t ALp = Ok lp /\ angle_of k t AM = Ok m /\ angle_of k t Aap = Ok w /\ l = m + lp /\ lp = w + kLan k t /\
  (forall f, elem L = Ok f -> l = f t) /\ (forall f, elem Lp = Ok f -> lp = f t) /\ (forall f, elem ap = Ok f -> w = f t) /\ (forall f, elem M = Ok f -> m = f t) /\ (forall f, elem Lan = Ok f -> kLan k t = f t).
Proof.
  intros a e i Lan L Lp ap M tol A B C D K. apply elem_usable in A, B, C, D. destruct A as [fa A]. destruct B as [fe B]. destruct C as [fi C]. destruct D as [fl D].
  assert (N : forall v f, elem v = Ok f -> need v = Ok tt) by (intros [v|] f Q; [reflexivity|discriminate]).
  unfold newKepler. rewrite (N _ _ A), (N _ _ B), (N _ _ C), (N _ _ D). cbn [bind]. rewrite A, B, C, D. cbn [bind]. destruct K as [(U & V & -> & ->)|(-> & -> & U & V)].
  - pose proof U as (u & -> & _). pose proof V as (v & -> & _). apply elem_usable in U, V. destruct U as [f1 U]. destruct V as [f2 V]. rewrite U, V. cbn [bind]. eexists. split; [reflexivity|]. intros t. eexists. eexists. eexists. eexists.
    split; [reflexivity|]. split; [reflexivity|]. split; [reflexivity|]. split; [reflexivity|]. cbn [kLan]. split; [ring|]. split; [ring|]. repeat split; intros f Q; first [discriminate Q|congruence].
  - pose proof U as (u & -> & _). pose proof V as (v & -> & _). apply elem_usable in U, V. destruct U as [f1 U]. destruct V as [f2 V]. rewrite U, V. cbn [bind]. eexists. split; [reflexivity|]. intros t. eexists. eexists. eexists. eexists.
    split; [reflexivity|]. split; [reflexivity|]. split; [reflexivity|]. split; [reflexivity|]. cbn [kLan]. split; [ring|]. split; [ring|]. repeat split; intros f Q; first [discriminate Q|congruence].
Qed.
Theorem C72_both : forall a e i Lan L Lp ap M tol, (L <> None /\ Lp <> None /\ (ap <> None \/ M <> None)) \/ (ap <> None /\ M <> None /\ (L <> None \/ Lp <> None)) -> newKepler a e i Lan L Lp ap M tol = Raise TypeError.
Proof.
  intros a e i Lan L Lp ap M tol H. assert (EO : forall v, elem v = Raise TypeError \/ exists f, elem v = Ok f). { intros [[f|[|x [|y [|]]]|]|]; cbn [elem makeElement]; eauto. }
  unfold newKepler. destruct a; [|reflexivity]. destruct e; [|reflexivity]. destruct i; [|reflexivity]. destruct Lan; [|reflexivity]. cbn [need bind].
  destruct (EO (Some e0)) as [->|[f1 ->]]; [reflexivity|]. cbn [bind]. destruct (EO (Some e)) as [->|[f2 ->]]; [reflexivity|]. cbn [bind]. destruct (EO (Some e1)) as [->|[f3 ->]]; [reflexivity|]. cbn [bind]. destruct (EO (Some e2)) as [->|[f4 ->]]; [reflexivity|]. cbn [bind].
  destruct L, Lp, ap, M; try reflexivity; exfalso; intuition congruence.
Qed.
(** an object that has neither pair is made without complaint, but its angles never end *)
Theorem C72_missing_refuted : exists v k, usable v /\ newKepler v v v v v None None v None = Ok k /\ forall fuel t x, get_angle fuel k t x = OutOfFuel.
Proof.
  exists (Some (ESeq [0])). eexists. split; [eexists; split; [reflexivity|discriminate]|]. split; [reflexivity|]. intros fuel t. induction fuel as [|f IH]; intros x; [reflexivity|]. destruct x; cbn [get_angle kL kLp kM kap]; rewrite ?IH; reflexivity.
Qed.

(** ** Kepler's equation *)
Lemma sin_abs x : Rabs (sin x) <= Rabs x.
Proof.
  assert (P : forall x, 0 <= x -> Rabs (sin x) <= x).
  { intros y [H|<-]; [|rewrite sin_0, Rabs_R0; lra]. apply Rabs_le. destruct (Rle_dec 1 y); [pose proof (SIN_bound y); lra|]. split; [|left; now apply sin_lt_x]. pose proof PI2_1. assert (0 < sin y) by (apply sin_gt_0; lra). lra. }
  destruct (Rle_dec 0 x) as [H|H]; [rewrite (Rabs_pos_eq x) by trivial; now apply P|]. rewrite <- (Rabs_Ropp (sin x)), <- sin_neg. rewrite (Rabs_left x) by lra. apply P. lra.
Qed.
Lemma sin_lip a b : Rabs (sin a - sin b) <= Rabs (a - b).
Proof.
  rewrite form4, !Rabs_mult. rewrite (Rabs_pos_eq 2) by lra. pose proof (sin_abs ((a - b) / 2)) as S. assert (E : Rabs ((a - b) / 2) = Rabs (a - b) / 2) by (unfold Rdiv; rewrite Rabs_mult, (Rabs_pos_eq (/ 2)) by lra; reflexivity). rewrite E in S.
  assert (Cb : Rabs (cos ((a + b) / 2)) <= 1) by (apply Rabs_le; pose proof (COS_bound ((a + b) / 2)); lra). pose proof (Rabs_pos (sin ((a - b) / 2))). pose proof (Rabs_pos (cos ((a + b) / 2))). pose proof (Rabs_pos (a - b)). nra.
Qed.
Definition kepler (e E : R) : R := E - e * sin E.
Lemma kepler_expand e a b : 0 <= e < 1 -> (1 - e) * Rabs (a - b) <= Rabs (kepler e a - kepler e b).
Proof.
  intros H. unfold kepler. replace (a - e * sin a - (b - e * sin b)) with ((a - b) - e * (sin a - sin b)) by ring. pose proof (Rabs_triang_inv (a - b) (e * (sin a - sin b))) as T. rewrite Rabs_mult, (Rabs_pos_eq e) in T by lra. pose proof (sin_lip a b). nra.
Qed.
Lemma kepler_cont e : continuity (kepler e).
Proof. unfold kepler. apply continuity_minus; [apply derivable_continuous, derivable_id|]. apply continuity_mult; [apply continuity_const; intros x y; reflexivity|apply continuity_sin]. Qed.
(** to every mean anomaly belongs exactly one eccentric anomaly; it grows with it *)
Theorem C72_kepler : forall e, 0 <= e < 1 -> (forall M, exists! E, E - e * sin E = M) /\ (forall E1 E2, E1 < E2 -> E1 - e * sin E1 < E2 - e * sin E2) /\ (forall E k, (E + IZR k * (2 * PI)) - e * sin (E + IZR k * (2 * PI)) = (E - e * sin E) + IZR k * (2 * PI)).
Proof.
  intros e H. split; [|split].
  - intros M. assert (X : exists E, kepler e E = M).
    { set (g := fun x => kepler e x - M). assert (Cg : continuity g) by (unfold g; apply continuity_minus; [apply kepler_cont|apply continuity_const; intros x y; reflexivity]).
      destruct (IVT g (M - 1) (M + 1) Cg) as (z & _ & Z); [lra| | |exists z; unfold g in Z; lra]; unfold g, kepler.
      - pose proof (SIN_bound (M - 1)). nra.
      - pose proof (SIN_bound (M + 1)). nra. }
    destruct X as [E X]. exists E. split; [exact X|]. intros E' X'. change (kepler e E' = M) in X'. pose proof (kepler_expand e E E' H) as K. rewrite X, X' in K. replace (M - M) with 0 in K by ring. rewrite Rabs_R0 in K. pose proof (Rabs_pos (E - E')). assert (Z : Rabs (E - E') = 0) by nra. destruct (Req_dec (E - E') 0) as [|N]; [lra|]. apply Rabs_no_R0 in N. contradiction.
  - intros a b L. pose proof (sin_lip b a) as S. rewrite (Rabs_pos_eq (b - a)) in S by lra. assert (sin b - sin a <= b - a) by (eapply Rle_trans; [apply Rle_abs|exact S]). nra.
  - intros E k. rewrite sin_2kpi. ring.
Qed.
Lemma rad_mod x : exists k, rad (pymod x 360) = rad x + IZR k * (2 * PI).
Proof. destruct (pymod_cong x 360) as (k & ->). exists k. unfold rad. field. Qed.
Lemma reduced_cong M : exists k, reduced M = rad M + IZR k * (2 * PI).
Proof. unfold reduced. destruct (pymod_cong (M + 180) 360) as (k & ->). exists k. unfold rad. field. Qed.
Lemma rad_deg_ x : rad (deg x) = x.
Proof. unfold rad, deg. pose proof PI_RGT_0. field. lra. Qed.
Lemma near_root e Er E M d : 0 <= e < 1 -> Rabs (kepler e Er - M) <= d -> kepler e E = M -> Rabs (Er - E) <= d / (1 - e).
Proof.
  intros H D X. pose proof (kepler_expand e Er E H) as K. rewrite X in K. apply Rmult_le_reg_l with (1 - e); [lra|]. apply Rle_trans with d; [lra|]. right. field. lra.
Qed.
Lemma ecc_near Er M Mdeg E e d : 0 <= e < 1 -> M = reduced Mdeg -> Rabs (kepler e Er - M) <= d -> E - e * sin E = rad Mdeg -> exists k, Rabs (rad (pymod (deg Er) 360) - (E + IZR k * (2 * PI))) <= d / (1 - e).
Proof.
  intros H -> D X. destruct (reduced_cong Mdeg) as (j & J). destruct (rad_mod (deg Er)) as (n & N). rewrite rad_deg_ in N. exists (n + j)%Z. rewrite N, plus_IZR.
  replace (Er + IZR n * (2 * PI) - (E + (IZR n + IZR j) * (2 * PI))) with (Er - (E + IZR j * (2 * PI))) by ring. apply near_root with (reduced Mdeg); trivial. unfold kepler. rewrite sin_2kpi, J, <- X. ring.
Qed.
(** if the equation solver leaves a residual of at most d, the eccentric anomaly is off by at most d/(1-e) (modulo full turns) *)
Theorem C72_anomaly : forall solve tol Mdeg e E d, 0 <= e < 1 -> tol <> Some 0 -> (forall E0 M, Rabs (solve tol E0 M e - e * sin (solve tol E0 M e) - M) <= d) ->
  E - e * sin E = rad Mdeg -> exists k, Rabs (rad (ecc solve tol Mdeg e) - (E + IZR k * (2 * PI))) <= d / (1 - e).
Proof.
  intros solve tol Mdeg e E d H T D X. unfold ecc. assert (Q : match tol with Some z => if Req_EM_T z 0 then start (reduced Mdeg) e else solve tol (start (reduced Mdeg) e) (reduced Mdeg) e | None => solve tol (start (reduced Mdeg) e) (reduced Mdeg) e end = solve tol (start (reduced Mdeg) e) (reduced Mdeg) e).
  { destruct tol as [z|]; [|reflexivity]. destruct (Req_EM_T z 0); [congruence|reflexivity]. }
  rewrite Q. eapply ecc_near; [exact H|reflexivity|apply D|exact X].
Qed.
(** the approximation used for Etol = 0 *)
Theorem C72_approximation : forall solve Mdeg e E, 0 <= e < 1 -> E - e * sin E = rad Mdeg -> exists k, Rabs (rad (ecc solve (Some 0) Mdeg e) - (E + IZR k * (2 * PI))) <= 3 * e ^ 3 / (1 - e).
Proof.
  intros solve Mdeg e E H X. unfold ecc. destruct (Req_EM_T 0 0) as [_|N]; [|congruence]. eapply ecc_near; [exact H|reflexivity| |exact X]. set (M := reduced Mdeg). unfold kepler, start.
  set (s := sin M). set (c := cos M). set (dl := e * s * (1 + e * c)). rewrite sin_plus. fold s c.
  assert (SC : s * s + c * c = 1) by (pose proof (sin2_cos2 M) as Q; unfold Rsqr in Q; exact Q).
  assert (B1 : Rabs (1 - cos dl) <= dl * dl / 2). { rewrite Rabs_pos_eq by (pose proof (COS_bound dl); lra). replace dl with (2 * (dl / 2)) at 1 by field. rewrite cos_2a_sin. pose proof (sin_abs (dl / 2)) as Q. apply Rsqr_le_abs_1 in Q. unfold Rsqr in Q. lra. }
  assert (B2 : Rabs (dl - sin dl) <= dl * dl / 2). {
    assert (G : forall x, 0 <= x -> 0 <= x - sin x <= x * x / 2).
    { intros x P. split; [pose proof (sin_abs x) as Q; rewrite (Rabs_pos_eq x) in Q by trivial; pose proof (Rle_abs (sin x)); lra|].
      destruct (Rle_dec 3 x) as [L|L]; [pose proof (SIN_bound x); nra|]. destruct P as [P|<-]; [|rewrite sin_0; lra].
      assert (x <= 4) by lra. pose proof (pre_sin_bound x 0 ltac:(lra) ltac:(lra)) as [Q _]. change (2 * 0 + 1)%nat with 1%nat in Q. unfold sin_approx in Q. cbn [sum_f_R0] in Q. unfold sin_term in Q. change (2 * 0 + 1)%nat with 1%nat in Q. change (2 * 1 + 1)%nat with 3%nat in Q. replace (INR (fact 3)) with 6 in Q by (simpl; lra). replace (INR (fact 1)) with 1 in Q by (simpl; lra). cbn [pow] in Q. nra. }
    destruct (Rle_dec 0 dl) as [P|P]. { pose proof (G dl P). rewrite Rabs_pos_eq; lra. } pose proof (G (- dl) ltac:(lra)) as Q. rewrite sin_neg in Q. rewrite Rabs_left1; lra. }
  replace (M + dl - e * (s * cos dl + c * sin dl) - M) with (e * (s * (1 - cos dl)) + e * (c * (dl - sin dl)) - e * e * e * (s * c * c)) by (unfold dl; ring).
  assert (Bs : -1 <= s <= 1) by (unfold s; pose proof (SIN_bound M); lra). assert (Bc : -1 <= c <= 1) by (unfold c; pose proof (COS_bound M); lra).
  assert (Ad : dl * dl <= 4 * e * e * (s * s)).
  { unfold dl. assert (Q : -2 <= 1 + e * c <= 2) by nra. assert ((1 + e * c) * (1 + e * c) <= 4) by nra. replace (e * s * (1 + e * c) * (e * s * (1 + e * c))) with (e * e * (s * s) * ((1 + e * c) * (1 + e * c))) by ring. assert (0 <= e * e * (s * s)) by (pose proof (Rle_0_sqr (e * s)) as Z; unfold Rsqr in Z; lra). nra. }
  assert (T1 : Rabs (e * (s * (1 - cos dl)) + e * (c * (dl - sin dl)) - e * e * e * (s * c * c)) <= e * (Rabs s * (dl * dl / 2)) + e * (Rabs c * (dl * dl / 2)) + e * e * e * Rabs (s * c * c)).
  { eapply Rle_trans; [apply Rabs_triang|]. apply Rplus_le_compat; [eapply Rle_trans; [apply Rabs_triang|]; apply Rplus_le_compat|].
    - rewrite !Rabs_mult, (Rabs_pos_eq e) by lra. apply Rmult_le_compat_l; [lra|]. apply Rmult_le_compat_l; [apply Rabs_pos|trivial].
    - rewrite !Rabs_mult, (Rabs_pos_eq e) by lra. apply Rmult_le_compat_l; [lra|]. apply Rmult_le_compat_l; [apply Rabs_pos|trivial].
    - rewrite Rabs_Ropp, Rabs_mult, (Rabs_pos_eq (e * e * e)) by (repeat apply Rmult_le_pos; lra). lra. }
  eapply Rle_trans; [exact T1|]. clear T1 B1 B2. set (u := Rabs s) in *. set (v := Rabs c) in *. assert (U : 0 <= u <= 1) by (unfold u; split; [apply Rabs_pos|apply Rabs_le; lra]). assert (V : 0 <= v <= 1) by (unfold v; split; [apply Rabs_pos|apply Rabs_le; lra]).
  assert (Su : s * s = u * u) by (unfold u; rewrite <- Rabs_mult, Rabs_pos_eq; [reflexivity|nra]). assert (Sv : c * c = v * v) by (unfold v; rewrite <- Rabs_mult, Rabs_pos_eq; [reflexivity|nra]). assert (W : Rabs (s * c * c) = u * (v * v)) by (rewrite !Rabs_mult; fold u v; ring). rewrite W.
  rewrite Su in *. rewrite Sv in *. apply Rle_trans with (e * e * e * (2 * (u * u) * u + 2 * (u * u) * v + u * (v * v))).
  - assert (Z : e * (u * (dl * dl / 2)) + e * (v * (dl * dl / 2)) <= e * (u * (2 * e * e * (u * u))) + e * (v * (2 * e * e * (u * u)))). { apply Rplus_le_compat; apply Rmult_le_compat_l; try lra; apply Rmult_le_compat_l; lra. } lra.
  - replace (3 * e ^ 3) with (e * e * e * 3) by ring. apply Rmult_le_compat_l; [repeat apply Rmult_le_pos; lra|].
    assert (2 * (u * u) * v <= u). { assert (2 * (u * v) <= 1) by (pose proof (Rle_0_sqr (u - v)) as Z; unfold Rsqr in Z; lra). nra. }
    assert (2 * (u * u) * u + u * (v * v) = u * u * u + u) by (replace (v * v) with (1 - u * u) by lra; ring). assert (u * u * u <= 1) by nra. lra.
Qed.

(** ** true anomaly *)
Lemma one_minus e E : 0 <= e < 1 -> 0 < 1 - e * cos E.
Proof. intros H. pose proof (COS_bound E). nra. Qed.
Lemma sq_e e : 0 <= e < 1 -> sqrt (1 - e * e) * sqrt (1 - e * e) = 1 - e * e.
Proof. intros H. apply sqrt_sqrt. nra. Qed.
Lemma focus_square e E : 0 <= e < 1 -> (cos E - e) * (cos E - e) + (sqrt (1 - e * e) * sin E) * (sqrt (1 - e * e) * sin E) = (1 - e * cos E) * (1 - e * cos E).
Proof.
  intros H. pose proof (sin2_cos2 E) as S. unfold Rsqr in S. replace (sqrt (1 - e * e) * sin E * (sqrt (1 - e * e) * sin E)) with (sqrt (1 - e * e) * sqrt (1 - e * e) * (sin E * sin E)) by ring. rewrite sq_e by trivial. replace (sin E * sin E) with (1 - cos E * cos E) by lra. ring.
Qed.
Lemma nu_polar e Edeg : 0 <= e < 1 -> let E := rad Edeg in let n := rad (nu e Edeg) in cos E - e = (1 - e * cos E) * cos n /\ sqrt (1 - e * e) * sin E = (1 - e * cos E) * sin n.
Proof.
  intros H E n. pose proof (atan2_polar (cos E - e) (sqrt (1 - e * e) * sin E)) as P. cbv zeta in P. rewrite focus_square in P by trivial. pose proof (one_minus e E H). rewrite sqrt_square in P by lra. unfold n, nu. fold E. rewrite rad_deg_. exact P.
Qed.
(** the true anomaly: between -180 and 180, on the same side as the eccentric anomaly, with the standard relation to it *)
Theorem C72_true_anomaly : forall e Edeg, 0 <= e < 1 -> let E := rad Edeg in let n := rad (nu e Edeg) in -180 < nu e Edeg <= 180 /\
  cos n = (cos E - e) / (1 - e * cos E) /\ sin n = sqrt (1 - e * e) * sin E / (1 - e * cos E) /\ (sin E = 0 <-> sin n = 0) /\ (0 < sin E <-> 0 < sin n) /\ (1 - e) * Rsqr (sin (n / 2)) * Rsqr (cos (E / 2)) = (1 + e) * Rsqr (sin (E / 2)) * Rsqr (cos (n / 2)).
Proof.
  intros e Edeg H E n. pose proof (nu_polar e Edeg H) as (A & B). fold E n in A, B. pose proof (one_minus e E H) as O. assert (S : 0 < sqrt (1 - e * e)) by (apply sqrt_lt_R0; nra).
  split.
  { unfold nu. set (z := atan2 _ _). pose proof (atan2_range (sqrt (1 - e * e) * sin (rad Edeg)) (cos (rad Edeg) - e)) as Q. fold z in Q. pose proof PI_RGT_0. unfold deg. split; [apply Rmult_lt_reg_r with PI|apply Rmult_le_reg_r with PI]; trivial; unfold Rdiv; rewrite Rmult_assoc, Rinv_l; nra. }
  split; [rewrite A; field; lra|]. split; [rewrite B; field; lra|]. split; [|split].
  - split; intros Q; rewrite Q in B; rewrite Rmult_0_r in B; [apply (Rmult_eq_reg_l (1 - e * cos E)); lra|apply (Rmult_eq_reg_l (sqrt (1 - e * e))); lra].
  - split; intros Q; [apply (Rmult_lt_reg_l (1 - e * cos E)); trivial; rewrite <- B|apply (Rmult_lt_reg_l (sqrt (1 - e * e))); trivial; rewrite B]; rewrite Rmult_0_r; now apply Rmult_lt_0_compat.
  - unfold Rsqr. assert (C1 : cos E = 2 * (cos (E / 2) * cos (E / 2)) - 1) by (replace E with (2 * (E / 2)) at 1 by field; rewrite cos_2a_cos; ring). assert (C2 : cos n = 2 * (cos (n / 2) * cos (n / 2)) - 1) by (replace n with (2 * (n / 2)) at 1 by field; rewrite cos_2a_cos; ring).
    pose proof (sin2_cos2 (E / 2)) as S1. pose proof (sin2_cos2 (n / 2)) as S2. unfold Rsqr in S1, S2. rewrite C1, C2 in A. set (p := cos (E / 2) * cos (E / 2)) in *. set (q := cos (n / 2) * cos (n / 2)) in *.
    replace (sin (n / 2) * sin (n / 2)) with (1 - q) by lra. replace (sin (E / 2) * sin (E / 2)) with (1 - p) by lra. lra.
Qed.

(** an eccentric orbit given by mean longitude and longitude of pericenter *)
Example C72_nonvacuous : complete (Some (ESeq [100; 36000])) (Some (EFun (fun _ => 103))) None None /\ usable (Some (ESeq [1; 0; 2])) /\ 0 <= 0.2 < 1 /\ exists solve : option R -> R -> R -> R -> R, forall E0 M, Rabs (solve None E0 M 0 - 0 * sin (solve None E0 M 0) - M) <= 0.
Proof.
  split; [left; repeat split; eexists; (split; [reflexivity|discriminate])|]. split; [eexists; split; [reflexivity|discriminate]|]. split; [lra|]. exists (fun _ _ M _ => M). intros. replace (M - 0 * sin M - M) with 0 by ring. rewrite Rabs_R0. lra.
Qed.
