(** * AngleProps: C19 (angle ranges), C20 (sexagesimal), C32 (angle arithmetic) *)
From Coq Require Import Reals ZArith Lra Lia Psatz List Bool.
From Verif Require Import PyBase RealTrig AngleModel AngleProofs AngleSexa.
Import ListNotations.
Open Scope R_scope.

(** Histories of assignments (raising ones included), without degminsec assignments
    of negative degrees while a range is set and without ranges (x,x,cycle). *)
Fixpoint history_ok (a : ang) (l : list aop) : Prop :=
  match l with [] => True | o :: r => op_ok a o /\ history_ok (fst (astep a o)) r end.

(** ** C19 *)
(** The value is always within the range last set. *)
Theorem C19_always_in_range : forall x l, history_ok (Ang x None) l ->
  match range (arun (Ang x None) l) with
  | None => True
  | Some (low, up, None) => low <= decval (arun (Ang x None) l) <= up
  | Some (low, up, Some c) => low <= decval (arun (Ang x None) l) <= up /\ (c <= 0 -> decval (arun (Ang x None) l) < up)
  end.
Proof.
  intros x l Hl. assert (ok (arun (Ang x None) l)) as (_ & Hi); [|exact Hi].
  assert (H0 : ok (Ang x None)) by (split; exact I). revert H0 Hl. generalize (Ang x None).
  induction l as [|o l IH]; intros a Ha Hl; [exact Ha|]. cbn in Hl. destruct Hl as (Ho & Hl). cbn. apply IH; auto. now apply astep_ok.
Qed.
Print Assumptions C19_always_in_range.
(** A raising assignment changes neither value nor range. *)
Theorem C19_failures_change_nothing : forall a o e, op_ok a o -> snd (astep a o) = Raise e -> fst (astep a o) = a.
Proof. exact astep_fail. Qed.
Print Assumptions C19_failures_change_nothing.
(** No cycle: values inside are stored as they are, values outside raise ValueError. *)
Theorem C19_hard_range : forall v low up x, 
  (low <= x <= up -> setRad (Ang v (Some (low, up, None))) x = (Ang x (Some (low, up, None)), Ok tt)) /\
  (x < low \/ up < x -> setRad (Ang v (Some (low, up, None))) x = (Ang v (Some (low, up, None)), Raise ValueError)).
Proof.
  intros v low up x. split; intros H; unfold setRad; cbn; destruct (Rle_dec low x); try destruct (Rle_dec x up); auto; lra.
Qed.
Print Assumptions C19_hard_range.
(** Cycle 0: stored modulo the width, in [low, up). *)
Theorem C19_cyclic_range : forall v low up x, low < up ->
  exists w (k : Z), setRad (Ang v (Some (low, up, Some 0))) x = (Ang w (Some (low, up, Some 0)), Ok tt) /\ low <= w < up /\ w = x + IZR k * (up - low).
Proof.
  intros v low up x Hlt. destruct (setRad (Ang v (Some (low, up, Some 0))) x) as (a', r) eqn:E. apply setRad_cases in E. cbn [range] in E.
  destruct E as [(e & -> & -> & Ec)|(w & -> & -> & Ec)].
  - exfalso. cbn in Ec. destruct (Req_EM_T (up - low) 0); [lra|]. destruct (Rlt_dec 0 0); discriminate.
  - destruct (checkRange_cyclic low up 0 x w ltac:(lra) Ec) as (k & ->). exists (x + IZR k * (up - low)), k. split; [reflexivity|]. split; [|reflexivity].
    apply checkRange_in in Ec; [|cbn; lra]. cbn in Ec. lra.
Qed.
Print Assumptions C19_cyclic_range.
(** Triangle wave with period twice the width (latitudes: (-90,90,360)): the value is
    folded into [low, up] by the period and by reflection at the upper edge; values
    inside are kept. *)
Theorem C19_triangle_range : forall v low up x, low < up ->
  let r := Some (low, up, Some (2 * (up - low))) in
  exists w (k : Z), setRad (Ang v r) x = (Ang w r, Ok tt) /\ low <= w <= up /\
    (x = w + IZR k * (2 * (up - low)) \/ x = (2 * up - w) + IZR k * (2 * (up - low))) /\ (low <= x <= up -> w = x).
Proof.
  intros v low up x Hlt r. destruct (setRad (Ang v r) x) as (a', s) eqn:E. apply setRad_cases in E. cbn [range] in E.
  destruct E as [(e & -> & -> & Ec)|(w & -> & -> & Ec)].
  - exfalso. unfold r in Ec. cbn in Ec. destruct (Req_EM_T (up - low) 0); [lra|]. destruct (Rlt_dec 0 (2 * (up - low))); discriminate.
  - destruct (checkRange_triangle low up x w Hlt Ec) as (k & Hk). exists w, k. split; [reflexivity|]. split; [|split; [exact Hk|]].
    + apply checkRange_in in Ec; [|cbn; lra]. cbn in Ec. lra.
    + intros Hx. assert (checkRange r x = Ok x) as E2; [|congruence]. apply checkRange_id; cbn; [lra|split; lra|split; lra].
Qed.
Print Assumptions C19_triangle_range.
(** Setting a range: None always succeeds; (low,up) with low>up raises; an accepted
    hard range requires the current value to be inside. *)
Theorem C19_set_range : forall a low up,
  setRange a RNone = (Ang (decval a) None, Ok tt) /\
  (up < low -> setRange a (R2 low up) = (a, Raise ValueError)) /\
  (low <= up -> up - low <> 360 -> rad low <= decval a <= rad up -> setRange a (R2 low up) = (Ang (decval a) (Some (rad low, rad up, None)), Ok tt)) /\
  (low <= up -> up - low <> 360 -> decval a < rad low \/ rad up < decval a -> setRange a (R2 low up) = (a, Raise ValueError)) /\
  (up - low = 360 -> exists w (k : Z), setRange a (R2 low up) = (Ang w (Some (rad low, rad up, Some 0)), Ok tt) /\ rad low <= w < rad up /\ w = decval a + IZR k * (2 * PI)).
Proof.
  intros a low up. split; [reflexivity|]. split; [|split; [|split]].
  - intros H. unfold setRange. destruct (Rlt_dec up low); [reflexivity|lra].
  - intros H H360 Hv. unfold setRange. destruct (Rlt_dec up low); [lra|]. destruct (Req_EM_T (up - low) 360); [lra|]. unfold applyRange. cbn.
    destruct (Rle_dec (rad low) (decval a)); [|lra]. destruct (Rle_dec (decval a) (rad up)); [reflexivity|lra].
  - intros H H360 Hv. unfold setRange. destruct (Rlt_dec up low); [lra|]. destruct (Req_EM_T (up - low) 360); [lra|]. unfold applyRange. cbn.
    destruct (Rle_dec (rad low) (decval a)); [|reflexivity]. destruct (Rle_dec (decval a) (rad up)); [lra|reflexivity].
  - intros H360. assert (W : rad up - rad low = 2 * PI) by (unfold rad; replace up with (low + 360) by lra; field).
    destruct (setRange_cases a (R2 low up) I) as [(e & E)|(r' & E & Hw & Hn & Er)].
    + exfalso. unfold setRange in E. destruct (Rlt_dec up low); [lra|]. destruct (Req_EM_T (up - low) 360); [|lra].
      unfold applyRange in E. cbn in E. pose proof PI_RGT_0. destruct (Req_EM_T (rad up - rad low) 0); [lra|].
      destruct (Rlt_dec 0 (rad 0)); discriminate.
    + destruct (Req_EM_T (up - low) 360); [|lra]. subst r'. rewrite E. destruct (applyRange_cases a _ Hn) as [(_ & Ec)|(w & -> & Ec)].
      * exfalso. cbn in Ec. destruct (Req_EM_T (rad up - rad low) 0); [discriminate|]. destruct (Rlt_dec 0 0); discriminate.
      * destruct (checkRange_cyclic _ _ 0 _ _ ltac:(lra) Ec) as (k & ->). eexists; exists k. split; [reflexivity|]. rewrite W. split; [|reflexivity].
        apply checkRange_in in Ec; [|exact Hw]. cbn in Ec. rewrite W in Ec. lra.
Qed.
Print Assumptions C19_set_range.

Lemma two_pi_pos : 0 < 2 * PI. Proof. pose proof PI_RGT_0. lra. Qed.
(** -30 degrees in a 0..360 range is 330; assigning it to a hard range (0,180) raises *)
Example C19_ex : let a := Ang 0 (Some (0, 2 * PI, Some 0)) in
  history_ok (Ang 0 None) [ORange (R2 0 360); ODeg (-30); ODms 10 0 0] /\
  setDeg a (-30) = (Ang (rad 330) (range a), Ok tt).
Proof.
  cbv zeta. split.
  - cbn [history_ok op_ok]. repeat split. intros. lra.
  - destruct (C19_cyclic_range 0 0 (2 * PI) (-30 * PI / 180) two_pi_pos) as (w & k & E & Hw & Ek). unfold setDeg. rewrite E. cbn [range]. do 2 f_equal.
    pose proof PI_RGT_0. assert (k = 1)%Z as ->; [|rewrite Ek; unfold rad; field].
    rewrite Ek in Hw. assert (0 < IZR k < 2) as (K1 & K2) by (split; nra). apply lt_IZR in K1, K2. lia.
Qed.
(** degminsec assigns the sign after the range check: -10 degrees end up in a 0..360 range. *)
Theorem C19_dms_sign_refuted : let a := Ang 0 (Some (0, 2 * PI, Some 0)) in
  exists a', setDms a (-10) 0 0 = (a', Ok tt) /\ ~ in_range (range a') (decval a').
Proof.
  cbv zeta. unfold setDms, setDeg, setRad. cbn [range checkRange]. pose proof PI_RGT_0.
  destruct (Req_EM_T (2 * PI - 0) 0); [lra|]. destruct (Rlt_dec 0 0); [lra|].
  rewrite Rabs_left, Rabs_R0 by lra. rewrite pymod_id; [|lra|split; lra].
  destruct (Rlt_dec (-10) 0); [|lra]. eexists. split; [reflexivity|]. cbn. lra.
Qed.
(** A range of width zero with a cycle raises ZeroDivisionError, but stays in force. *)
Theorem C19_zero_width_refuted : setRange (Ang 0 None) (R3 5 5 (Some 0)) = (Ang 0 (Some (rad 5, rad 5, Some (rad 0))), Raise ZeroDivisionError).
Proof.
  unfold setRange. destruct (Rlt_dec 5 5); [lra|]. unfold applyRange. cbn. destruct (Req_EM_T (rad 5 - rad 5) 0); [reflexivity|lra].
Qed.
(** The range argument is ignored when copying: AngularCoordinate(ac, range=(0,10)) *)
Theorem C19_copy_range_refuted : forall v, newAng (ICopy (Ang v None)) false false (R2 0 10) = Ok (Ang v None).
Proof. reflexivity. Qed.

(** ** C20 *)
(** hrsminsec of a non-negative angle: integer hours, minutes 0..59, seconds in [0,60), recomposing
    to the hours of the angle; of a negative angle, the negatives of those of the opposite angle. *)
Theorem C20_hms : forall a h m s, 0 <= decval a -> getHms a = (h, m, s) ->
  (0 <= h)%Z /\ (0 <= m <= 59)%Z /\ 0 <= s < 60 /\ getHours a = IZR h + IZR m / 60 + s / 3600.
Proof.
  intros a h m s Hv E. rewrite getHms_nonneg in E by auto. apply split60_spec in E.
  - replace (getHours a) with (getDeg a / 15) by (unfold getHours, getDeg; field; apply PI_neq0). exact E.
  - unfold getDeg. pose proof PI_RGT_0. apply Rmult_le_pos; [|lra]. apply Rmult_le_pos; [lra|]. left. now apply Rinv_0_lt_compat.
Qed.
Print Assumptions C20_hms.
Theorem C20_hms_negative : forall v r h m s, 0 <= v -> getHms (Ang v r) = (h, m, s) -> getHms (Ang (- v) r) = ((- h)%Z, (- m)%Z, - s).
Proof.
  intros v r h m s Hv E. rewrite getHms_nonneg in E by auto. apply getHms_neg; [cbn; lra|]. rewrite <- E. f_equal. unfold getDeg. cbn. field. apply PI_neq0.
Qed.
Print Assumptions C20_hms_negative.
(** degminsec: minutes and seconds of the absolute value, degrees with the sign of the angle *)
Theorem C20_dms : forall a d m s, getDms a = (d, m, s) ->
  (0 <= m <= 59)%Z /\ 0 <= s < 60 /\ Rabs (getDeg a) = IZR (Z.abs d) + IZR m / 60 + s / 3600 /\
  (0 <= decval a -> (0 <= d)%Z) /\ (decval a <= 0 -> (d <= 0)%Z).
Proof.
  intros a d m s E. rewrite getDms_split in E. destruct (split60 (Rabs (getDeg a))) as ((d0, m0), s0) eqn:S. injection E as Ed <- <-.
  apply split60_spec in S; [|apply Rabs_pos]. destruct S as (S1 & S2 & S3 & S4). pose proof (getDeg_sign a) as Hs.
  assert (Ez : Z.abs d = d0) by (rewrite <- Ed; destruct (Rlt_dec (getDeg a) 0); lia). rewrite Ez.
  split; [auto|]. split; [auto|]. split; [auto|]. destruct (Rlt_dec (getDeg a) 0) as [L|L].
  - split; intros; [lra|lia].
  - split; intros H; [lia|]. assert (decval a = 0) as E0 by lra. unfold getDeg in S4. rewrite E0 in S4.
    replace (0 * 180 / PI) with 0 in S4 by (field; apply PI_neq0). rewrite Rabs_R0 in S4.
    assert (0 <= IZR m0) by (apply IZR_le; lia). assert (IZR d0 <= 0) as L0 by lra. apply le_IZR in L0. lia.
Qed.
Print Assumptions C20_dms.
(** Setting and reading back *)
Theorem C20_set_then_get : forall (w m : Z) s, (0 <= m <= 59)%Z -> 0 <= s < 60 ->
  (exists a, setDms (Ang 0 None) (IZR w) (IZR m) s = (a, Ok tt) /\ getDms a = (w, m, s)) /\
  ((0 <= w)%Z -> exists a, setHms (Ang 0 None) (IZR w) (IZR m) s = (a, Ok tt) /\ getHms a = (w, m, s)).
Proof.
  intros w m s Hm Hs. assert (0 <= IZR m) by (apply IZR_le; lia). split.
  - unfold setDms, setDeg, setRad. cbn [range checkRange decval]. eexists. split; [reflexivity|].
    rewrite (Rabs_pos_eq (IZR m)), (Rabs_pos_eq s) by lra. rewrite <- (dms_set_get w m s None Hm Hs).
    unfold rad. destruct (Rlt_dec (IZR w) 0); reflexivity.
  - intros Hw. eexists. split; [reflexivity|]. apply (hms_set_get w m s None); auto.
Qed.
Print Assumptions C20_set_then_get.
Theorem C20_get_then_set : forall a, range a = None ->
  (forall h m s, getHms a = (h, m, s) -> setHms a (IZR h) (IZR m) s = (a, Ok tt)) /\
  (0 <= getDeg a \/ getDeg a <= -1 -> forall d m s, getDms a = (d, m, s) -> setDms a (IZR d) (IZR m) s = (a, Ok tt)).
Proof.
  intros a Hr. split; [intros; now apply hms_get_set|]. intros Hv d m s E. apply dms_get_set; auto. pose proof PI_RGT_0.
  replace (decval a) with (rad (getDeg a)) by (unfold rad, getDeg; field; lra). destruct Hv; [left; now apply rad_nonneg|right].
  rewrite <- rad_opp. apply rad_le. lra.
Qed.
Print Assumptions C20_get_then_set.
(** Printing with n decimals.  Minutes below 60 and seconds that do not print as 60; right to
    half a unit of the last digit (for a negative angle, unless it rounds up to a whole degree). *)
Theorem C20_dms_string : forall n a, let p := dmsStr n a in let x := Rabs (getDeg a) * 3600 * IZR (ten n) in
  (0 <= p_min p <= 59)%Z /\ (0 <= p_sec p < 60 * ten n)%Z /\ (0 <= p_whole p)%Z /\ (p_neg p = true <-> decval a < 0) /\
  (0 <= decval a \/ x < IZR (rfloor (Rabs (getDeg a)) + 1) * 3600 * IZR (ten n) - 1/2 ->
     -(1/2) <= IZR ((p_whole p * 3600 + p_min p * 60) * ten n + p_sec p) - x <= 1/2).
Proof. exact dmsStr_spec. Qed.
Print Assumptions C20_dms_string.
Theorem C20_hms_string : forall n a h m su, 0 <= decval a -> hmsStr n a = (h, m, su) -> let x := getHours a * 3600 * IZR (ten n) in
  (0 <= m <= 59)%Z /\ (0 <= su < 60 * ten n)%Z /\ (0 <= h)%Z /\
  exists k, (k = 0 \/ k = 24)%Z /\ -(1/2) <= IZR (((h + k) * 3600 + m * 60) * ten n + su) - x <= 1/2.
Proof. exact hmsStr_spec. Qed.
Print Assumptions C20_hms_string.

Example C20_ex : getHms (Ang (rad (15 * (12 + 34 / 60 + 56 / 3600))) None) = (12%Z, 34%Z, 56).
Proof. apply (hms_set_get 12 34 56); lia || lra. Qed.

(** The sign of angles between -1 and 0 degrees is lost: reading degminsec of -0.5 degrees
    and assigning it back gives +0.5 degrees. *)
Lemma minus_half : getDms (Ang (rad (-(1/2))) None) = (0%Z, 30%Z, 0).
Proof.
  rewrite getDms_split, getDeg_rad, Rabs_Ropp, (Rabs_pos_eq (1 / 2)) by lra. rewrite (split60_unique _ 0 30 0); [|lia|lia|lra|lra].
  destruct (Rlt_dec (-(1/2)) 0); reflexivity.
Qed.
Theorem C20_small_negative_refuted : 
  exists d m s, getDms (Ang (rad (-(1/2))) None) = (d, m, s) /\ setDms (Ang 0 None) (IZR d) (IZR m) s = (Ang (rad (1/2)) None, Ok tt).
Proof.
  exists 0%Z, 30%Z, 0. split; [exact minus_half|].
  unfold setDms, setDeg, setRad. cbn [range checkRange decval]. rewrite !Rabs_pos_eq by lra. destruct (Rlt_dec 0 0); [lra|].
  do 2 f_equal. unfold rad. field.
Qed.
(** A negative angle that rounds up to a whole degree is printed one degree towards zero too far:
    -5d59'59.999" is printed as -4d0'00.00". *)
Theorem C20_negative_carry_refuted : dmsStr 2 (Ang (rad (- (6 - 1 / 3600000))) None) = P true 4 0 0.
Proof.
  unfold dmsStr. rewrite getDms_split, getDeg_rad, Rabs_Ropp, (Rabs_pos_eq (6 - 1 / 3600000)) by lra.
  rewrite (split60_unique _ 5 59 (59999 / 1000)); [|lia|lia|lra|lra]. destruct (Rlt_dec (- (6 - 1 / 3600000)) 0); [|lra].
  assert (rneR (59999 / 1000 * IZR (ten 2)) = 6000)%Z as ->.
  { unfold rneR. change (IZR (ten 2)) with 100. rewrite (rfloor_unique _ 5999) by lra. destruct (Rlt_dec _ _); [lra|]. destruct (Rlt_dec _ _); [reflexivity|lra]. }
  change (60 * ten 2 <=? 6000)%Z with true. cbv iota. change (59 + 1 =? 60)%Z with true. cbv iota. cbn [decval].
  destruct (Rlt_dec (rad (- (6 - 1 / 3600000))) 0) as [|N]; [reflexivity|]. exfalso. apply N. unfold rad. pose proof PI_RGT_0. lra.
Qed.
(** Negative hours print every field with a sign, and no carry: -1h59m59.999s prints -1, -59, -60.00 *)
Theorem C20_negative_hms_refuted : hmsStr 2 (Ang (rad (- (30 - 15 / 3600000))) None) = ((-1)%Z, (-59)%Z, (-6000)%Z).
Proof.
  unfold hmsStr. erewrite getHms_neg.
  2: { cbn. unfold rad. pose proof PI_RGT_0. lra. }
  2: { rewrite getDeg_rad. apply (split60_unique _ 1 59 (59999 / 1000)); [lia|lia|lra|lra]. }
  assert (rneR (- (59999 / 1000) * IZR (ten 2)) = -6000)%Z as ->.
  { unfold rneR. change (IZR (ten 2)) with 100. rewrite (rfloor_unique _ (-6000)) by lra. destruct (Rlt_dec _ _); [reflexivity|lra]. }
  reflexivity.
Qed.

(** ** C32: arithmetic *)
(** [b + (a - b)] is [a]; differences are signed and exact; products and (classic) quotients scale the value. *)
Theorem C32_arithmetic : forall a b x,
  decval (sub a b) = decval a - decval b /\ decval (add b (sub a b)) = decval a /\ decval (add a b) = decval (add b a) /\
  decval (mul a x) = decval a * x /\
  (x <> 0 -> exists c, div_classic a x = Ok c /\ decval (mul c x) = decval a) /\
  (div_classic a 0 = Raise ZeroDivisionError).
Proof.
  intros a b x. assert (S : decval (sub a b) = decval a - decval b).
  { unfold sub, sep2, sepval. cbn. unfold rad, deg. field. apply PI_neq0. }
  split; [exact S|]. split; [unfold add; cbn [decval]; rewrite S; ring|]. split; [unfold add; cbn; ring|]. split; [reflexivity|]. split.
  - intros Hx. unfold div_classic. destruct (Req_EM_T x 0); [lra|]. eexists. split; [reflexivity|]. cbn. field. auto.
  - unfold div_classic. destruct (Req_EM_T 0 0); [reflexivity|lra].
Qed.
Print Assumptions C32_arithmetic.
(** separation3d is the law of cosines: the distance of the points at distances d1 and d2 in
    directions separated by the angle. *)
Theorem C32_separation3d : forall s d1 d2 t, 
  separation3d s d1 d2 = sqrt ((d2 * cos (t + decval s) - d1 * cos t)² + (d2 * sin (t + decval s) - d1 * sin t)²).
Proof.
  intros s d1 d2 t. unfold separation3d. f_equal. rewrite cos_plus, sin_plus. unfold Rsqr.
  pose proof (sin2_cos2 t) as A. pose proof (sin2_cos2 (decval s)) as B. unfold Rsqr in A, B.
  set (c := cos t) in *. set (z := sin t) in *. set (C := cos (decval s)) in *. set (S := sin (decval s)) in *.
  replace ((d2 * (c * C - z * S) - d1 * c) * (d2 * (c * C - z * S) - d1 * c) + (d2 * (z * C + c * S) - d1 * z) * (d2 * (z * C + c * S) - d1 * z))
    with (d2 * d2 * ((z * z + c * c) * (S * S + C * C)) + d1 * d1 * (z * z + c * c) - 2 * d1 * d2 * C * (z * z + c * c)) by ring.
  rewrite A, B. ring.
Qed.
Print Assumptions C32_separation3d.
Example C32_ex : decval (sub (Ang (rad 10) None) (Ang (rad 350) None)) = rad (-340).
Proof. destruct (C32_arithmetic (Ang (rad 10) None) (Ang (rad 350) None) 1) as (-> & _). cbn. unfold rad. field. Qed.
(** Under [from __future__ import division], [/] is floor division of the radians. *)
Theorem C32_truediv_refuted : div_true (Ang 1 None) 2 = Ok (Ang 0 None).
Proof. unfold div_true. destruct (Req_EM_T 2 0); [lra|]. cbn [decval]. rewrite (rfloor_unique _ 0); [reflexivity|lra]. Qed.
(** AngularSeparation(start,end) takes the radians of its arguments for degrees; so does AngularSeparation(ac). *)
Theorem C32_separation_constructor_refuted : 
  decval (sep2 (SAng (Ang 0 None)) (SAng (Ang PI None))) <> PI /\ decval (sep1 (SAng (Ang PI None))) <> PI.
Proof.
  unfold sep2, sep1, rad. cbn. pose proof PI_4. pose proof PI_RGT_0. split; intros E; nra.
Qed.
