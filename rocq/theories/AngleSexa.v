(** * AngleSexa: sexagesimal decomposition and printing *)
From Coq Require Import Reals ZArith Lra Lia Psatz List Bool.
From Verif Require Import PyBase RealTrig AngleModel AngleProofs.
Open Scope R_scope.

(** decomposition of a non-negative number *)
Definition split60 (f : R) : Z * Z * R :=
  let h := rfloor f in let ms := f - IZR h in let m := rfloor (ms * 60) in (h, m, ms * 3600 - IZR m * 60).
Lemma split60_spec f h m s : 0 <= f -> split60 f = (h, m, s) ->
  (0 <= h)%Z /\ (0 <= m <= 59)%Z /\ 0 <= s < 60 /\ f = IZR h + IZR m / 60 + s / 3600.
Proof.
  intros Hf E. unfold split60 in E. injection E as <- <- <-.
  pose proof (rfloor_spec f) as Hh. pose proof (rfloor_nonneg f Hf). set (h := rfloor f) in *.
  pose proof (rfloor_spec ((f - IZR h) * 60)) as Hm.
  pose proof (rfloor_nonneg ((f - IZR h) * 60) ltac:(lra)).
  assert (rfloor ((f - IZR h) * 60) < 60)%Z by (apply rfloor_lt; lra).
  set (m := rfloor ((f - IZR h) * 60)) in *. split; [auto|]. split; [lia|]. split; [lra|]. field.
Qed.
Lemma split60_unique f (h m : Z) s : (0 <= h)%Z -> (0 <= m <= 59)%Z -> 0 <= s < 60 -> f = IZR h + IZR m / 60 + s / 3600 -> split60 f = (h, m, s).
Proof.
  intros Hh Hm Hs E. assert (0 <= IZR m <= 59) as Hm' by (split; apply IZR_le; lia).
  assert (Eh : rfloor f = h) by (apply rfloor_unique; lra).
  assert (Em : rfloor ((f - IZR h) * 60) = m) by (apply rfloor_unique; lra).
  unfold split60. rewrite Eh, Em. f_equal. rewrite E. field.
Qed.

Lemma getHms_nonneg a : 0 <= decval a -> getHms a = split60 (getDeg a / 15).
Proof.
  intros H. pose proof PI_RGT_0. assert (0 <= getDeg a / 15).
  { unfold getDeg. apply Rmult_le_pos; [|lra]. apply Rmult_le_pos; [lra|]. left. now apply Rinv_0_lt_compat. }
  unfold getHms, split60. rewrite (pyint_nonneg (getDeg a / 15)) by auto. pose proof (rfloor_spec (getDeg a / 15)).
  rewrite pyint_nonneg by lra. reflexivity.
Qed.
Lemma getHms_neg a h m s : decval a <= 0 -> split60 (- getDeg a / 15) = (h, m, s) -> getHms a = ((- h)%Z, (- m)%Z, - s).
Proof.
  intros H E. pose proof PI_RGT_0. assert (getDeg a / 15 <= 0).
  { unfold getDeg. assert (0 <= - decval a * 180 / PI / 15); [|unfold Rdiv in *; lra].
    apply Rmult_le_pos; [|lra]. apply Rmult_le_pos; [lra|]. left. now apply Rinv_0_lt_compat. }
  unfold split60 in E. injection E as <- <- <-. unfold getHms. set (f := getDeg a / 15) in *.
  rewrite (pyint_neg f) by auto. replace (- getDeg a / 15) with (- f) by (unfold f; field).
  pose proof (rfloor_spec (- f)). rewrite opp_IZR.
  rewrite pyint_neg by lra. replace (- ((f - - IZR (rfloor (- f))) * 60)) with ((- f - IZR (rfloor (- f))) * 60) by ring.
  rewrite opp_IZR. f_equal. ring.
Qed.
Lemma getDms_split a : getDms a = let '(d, m, s) := split60 (Rabs (getDeg a)) in ((if Rlt_dec (getDeg a) 0 then - d else d)%Z, m, s).
Proof.
  unfold getDms, split60. rewrite (pyint_nonneg (Rabs (getDeg a))) by apply Rabs_pos. pose proof (rfloor_spec (Rabs (getDeg a))).
  rewrite pyint_nonneg by lra. reflexivity.
Qed.
Lemma getDeg_sign a : getDeg a < 0 <-> decval a < 0.
Proof.
  unfold getDeg. pose proof PI_RGT_0. assert (decval a = decval a * 180 / PI * (PI / 180)) as E by (field; lra).
  set (x := decval a * 180 / PI) in *. split; intros H'; [rewrite E|]; nra.
Qed.

(** ** set / get *)
Lemma setHms_value h m s : setHms (Ang 0 None) h m s = (Ang (rad (15 * (h + m / 60 + s / 3600))) None, Ok tt).
Proof. reflexivity. Qed.
Lemma getDeg_rad x r : getDeg (Ang (rad x) r) = x.
Proof. unfold getDeg, rad. cbn. field. apply PI_neq0. Qed.
Lemma rad_nonneg x : 0 <= x -> 0 <= rad x.
Proof. intros H. unfold rad. pose proof PI_RGT_0. apply Rmult_le_pos; [|lra]. apply Rmult_le_pos; lra. Qed.
Lemma rad_opp x : rad (- x) = - rad x. Proof. unfold rad. field. Qed.
Lemma Rabs_IZR z : Rabs (IZR z) = IZR (Z.abs z).
Proof. rewrite <- abs_IZR. reflexivity. Qed.

Lemma hms_set_get (h m : Z) s r : (0 <= h)%Z -> (0 <= m <= 59)%Z -> 0 <= s < 60 ->
  getHms (Ang (rad (15 * (IZR h + IZR m / 60 + s / 3600))) r) = (h, m, s).
Proof.
  intros Hh Hm Hs. assert (0 <= IZR m) by (apply IZR_le; lia). assert (0 <= IZR h) by (apply IZR_le; lia).
  rewrite getHms_nonneg by (cbn; apply rad_nonneg; lra). rewrite getDeg_rad. apply split60_unique; auto. field.
Qed.
Lemma hms_get_set a h m s : range a = None -> getHms a = (h, m, s) -> setHms a (IZR h) (IZR m) s = (a, Ok tt).
Proof.
  intros Hr E. unfold setHms, setDeg, setRad. rewrite Hr. cbn [checkRange]. f_equal. destruct a as [v r]. cbn in Hr. subst r. cbn. f_equal.
  destruct (Rle_lt_dec 0 v) as [H|H].
  - rewrite getHms_nonneg in E by auto. apply split60_spec in E.
    + destruct E as (_ & _ & _ & E). rewrite <- E. unfold getDeg. cbn. field. apply PI_neq0.
    + unfold getDeg. cbn. pose proof PI_RGT_0. apply Rmult_le_pos; [|lra]. apply Rmult_le_pos; [lra|]. left. now apply Rinv_0_lt_compat.
  - destruct (split60 (- getDeg (Ang v None) / 15)) as ((h', m'), s') eqn:S.
    rewrite (getHms_neg (Ang v None) _ _ _ ltac:(cbn; lra) S) in E. injection E as <- <- <-.
    apply split60_spec in S.
    + destruct S as (_ & _ & _ & E). rewrite !opp_IZR.
      replace (15 * (- IZR h' + - IZR m' / 60 + - s' / 3600)) with (- (15 * (IZR h' + IZR m' / 60 + s' / 3600))) by field.
      rewrite <- E. unfold getDeg. cbn. field. apply PI_neq0.
    + unfold getDeg. cbn. pose proof PI_RGT_0. assert (0 <= - v * 180 / PI / 15); [|unfold Rdiv in *; lra].
      apply Rmult_le_pos; [|lra]. apply Rmult_le_pos; [lra|]. left. now apply Rinv_0_lt_compat.
Qed.
Lemma dms_set_get (d m : Z) s r : (0 <= m <= 59)%Z -> 0 <= s < 60 ->
  getDms (Ang (if Rlt_dec (IZR d) 0 then - rad (Rabs (IZR d) + IZR m / 60 + s / 3600) else rad (Rabs (IZR d) + IZR m / 60 + s / 3600)) r) = (d, m, s).
Proof.
  intros Hm Hs. assert (0 <= IZR m) by (apply IZR_le; lia). pose proof (Rabs_pos (IZR d)).
  rewrite getDms_split. destruct (Rlt_dec (IZR d) 0) as [L|L].
  - rewrite <- rad_opp, getDeg_rad. rewrite Rabs_Ropp, (Rabs_pos_eq (_ + _)) by lra.
    rewrite (split60_unique _ (Z.abs d) m s); auto; [|lia|now rewrite Rabs_IZR].
    assert (d < 0)%Z by (apply lt_IZR; exact L).
    destruct (Rlt_dec (- (Rabs (IZR d) + IZR m / 60 + s / 3600)) 0) as [|N].
    + f_equal. f_equal. lia.
    + exfalso. apply N. rewrite Rabs_left in * by auto. lra.
  - rewrite getDeg_rad, (Rabs_pos_eq (_ + _)) by lra.
    assert (0 <= d)%Z by (apply le_IZR; lra).
    rewrite (split60_unique _ (Z.abs d) m s); auto; [|lia|now rewrite Rabs_IZR].
    destruct (Rlt_dec (Rabs (IZR d) + IZR m / 60 + s / 3600) 0); [lra|]. f_equal. f_equal. lia.
Qed.
Lemma dms_get_set a d m s : range a = None -> 0 <= decval a \/ decval a <= - rad 1 -> getDms a = (d, m, s) ->
  setDms a (IZR d) (IZR m) s = (a, Ok tt).
Proof.
  intros Hr Hv E. destruct a as [v r]. cbn in Hr, Hv. subst r. rewrite getDms_split in E.
  destruct (split60 (Rabs (getDeg (Ang v None)))) as ((d0, m0), s0) eqn:S. injection E as Ed <- <-.
  pose proof PI_RGT_0. apply split60_spec in S; [|apply Rabs_pos]. destruct S as (S1 & S2 & S3 & S4).
  assert (0 <= IZR m0) by (apply IZR_le; lia). assert (0 <= IZR d0) by (apply IZR_le; lia).
  assert (Hsgn := getDeg_sign (Ang v None)). cbn [decval] in Hsgn.
  assert (Ev : v = rad (getDeg (Ang v None))) by (unfold rad, getDeg; cbn; field; lra).
  unfold setDms, setDeg, setRad. cbn [range checkRange decval].
  destruct (Rlt_dec (getDeg (Ang v None)) 0) as [L|L].
  - assert (v < 0) by tauto. assert (1 <= d0)%Z.
    { assert (0 < d0)%Z; [|lia]. apply lt_IZR. destruct Hv as [Hv|Hv]; [lra|].
      rewrite Rabs_left in S4 by auto. assert (1 <= - getDeg (Ang v None)).
      { apply Rmult_le_reg_r with (PI / 180); [lra|].
        replace (- getDeg (Ang v None) * (PI / 180)) with (- v) by (unfold getDeg; cbn; field; lra). unfold rad in Hv. lra. }
      assert (IZR m0 <= 59) by (apply IZR_le; lia). lra. }
    assert (IZR 1 <= IZR d0) by (apply IZR_le; lia).
    rewrite <- Ed. rewrite opp_IZR, Rabs_Ropp, !Rabs_pos_eq by lra. rewrite <- S4.
    destruct (Rlt_dec (- IZR d0) 0); [|lra]. do 2 f_equal. rewrite Rabs_left by auto. rewrite Ev at 2. unfold rad. field.
  - rewrite <- Ed. rewrite !Rabs_pos_eq by lra. destruct (Rlt_dec (IZR d0) 0); [lra|]. rewrite <- S4, Rabs_pos_eq by lra.
    do 2 f_equal. symmetry. exact Ev.
Qed.

(** ** printing *)
Lemma rneR_spec x : -(1/2) <= IZR (rneR x) - x <= 1/2.
Proof.
  unfold rneR. pose proof (rfloor_spec x). destruct (Rlt_dec (x - IZR (rfloor x)) (1 / 2)); [lra|].
  destruct (Rlt_dec (1 / 2) (x - IZR (rfloor x))); [rewrite plus_IZR; lra|]. destruct (Z.even (rfloor x)); [lra|rewrite plus_IZR; lra].
Qed.
Lemma ten_pos n : (1 <= ten n)%Z.
Proof. unfold ten. pose proof (Z.pow_pos_nonneg 10 (Z.of_nat n)). lia. Qed.
Lemma rneR_sec s n : 0 <= s < 60 -> (0 <= rneR (s * IZR (ten n)) <= 60 * ten n)%Z.
Proof.
  intros Hs. pose proof (rneR_spec (s * IZR (ten n))). pose proof (ten_pos n) as Ht. assert (1 <= IZR (ten n)) as Ht' by (apply IZR_le; lia).
  split.
  - assert (IZR (-1) < IZR (rneR (s * IZR (ten n)))) as A by nra. apply lt_IZR in A. lia.
  - assert (IZR (rneR (s * IZR (ten n))) < IZR (60 * ten n + 1)) as A by (rewrite plus_IZR, mult_IZR; nra). apply lt_IZR in A. lia.
Qed.

(** what the fields of a printed angle denote, in units of 10^-n seconds *)
Definition denote (n : nat) (w m su : Z) : Z := ((w * 3600 + m * 60) * ten n + su)%Z.

(** getDmsStr: well-formed fields, and right to half a unit, except a carry out of the
    minutes of a negative angle *)
Lemma dmsStr_spec n a : let p := dmsStr n a in let x := Rabs (getDeg a) * 3600 * IZR (ten n) in
  (0 <= p_min p <= 59)%Z /\ (0 <= p_sec p < 60 * ten n)%Z /\ (0 <= p_whole p)%Z /\
  (p_neg p = true <-> decval a < 0) /\
  (0 <= decval a \/ x < IZR (rfloor (Rabs (getDeg a)) + 1) * 3600 * IZR (ten n) - 1/2 ->
     -(1/2) <= IZR (denote n (p_whole p) (p_min p) (p_sec p)) - x <= 1/2).
Proof.
  cbv zeta. unfold dmsStr. rewrite getDms_split. destruct (split60 (Rabs (getDeg a))) as ((d0, m0), s0) eqn:S.
  pose proof S as S'. apply split60_spec in S; [|apply Rabs_pos]. destruct S as (S1 & S2 & S3 & S4).
  assert (Efl : rfloor (Rabs (getDeg a)) = d0) by (unfold split60 in S'; congruence). rewrite Efl.
  pose proof (rneR_sec s0 n S3) as Hsu. pose proof (rneR_spec (s0 * IZR (ten n))) as Hr. set (su := rneR (s0 * IZR (ten n))) in *.
  pose proof (ten_pos n) as Ht. assert (1 <= IZR (ten n)) as Ht' by (apply IZR_le; lia).
  assert (Hneg : (if Rlt_dec (decval a) 0 then true else false) = true <-> decval a < 0) by (destruct (Rlt_dec (decval a) 0); split; auto; discriminate).
  pose proof (getDeg_sign a) as Hsgn.
  assert (Hx : Rabs (getDeg a) * 3600 * IZR (ten n) = (IZR d0 * 3600 + IZR m0 * 60) * IZR (ten n) + s0 * IZR (ten n)) by (rewrite S4; field).
  rewrite Hx. unfold denote. cbv beta iota.
  destruct (Z.leb_spec (60 * ten n) su) as [L|L]; [destruct (Z.eqb_spec (m0 + 1) 60) as [M|M]|]; cbn [p_neg p_whole p_min p_sec].
  - split; [lia|]. split; [lia|]. split; [lia|]. split; [exact Hneg|]. assert (su = 60 * ten n)%Z as Esu by lia. rewrite Esu, mult_IZR in Hr.
    assert (m0 = 59)%Z as -> by lia. intros [Hv|Hv].
    + destruct (Rlt_dec (getDeg a) 0); [lra|]. rewrite Z.abs_eq by lia. repeat (rewrite plus_IZR || rewrite minus_IZR || rewrite mult_IZR). lra.
    + exfalso. rewrite plus_IZR in Hv. lra.
  - split; [lia|]. split; [lia|]. split; [lia|]. split; [exact Hneg|]. assert (su = 60 * ten n)%Z as Esu by lia. rewrite Esu, mult_IZR in Hr.
    intros _. assert (Z.abs (if Rlt_dec (getDeg a) 0 then - d0 else d0) = d0)%Z as -> by (destruct (Rlt_dec (getDeg a) 0); lia).
    repeat (rewrite plus_IZR || rewrite minus_IZR || rewrite mult_IZR). lra.
  - split; [lia|]. split; [lia|]. split; [lia|]. split; [exact Hneg|].
    intros _. assert (Z.abs (if Rlt_dec (getDeg a) 0 then - d0 else d0) = d0)%Z as -> by (destruct (Rlt_dec (getDeg a) 0); lia).
    repeat (rewrite plus_IZR || rewrite minus_IZR || rewrite mult_IZR). lra.
Qed.
(** getHmsStr of a non-negative angle: right to half a unit, modulo 24 hours *)
Lemma hmsStr_spec n a h m su : 0 <= decval a -> hmsStr n a = (h, m, su) -> let x := getHours a * 3600 * IZR (ten n) in
  (0 <= m <= 59)%Z /\ (0 <= su < 60 * ten n)%Z /\ (0 <= h)%Z /\
  exists k, (k = 0 \/ k = 24)%Z /\ -(1/2) <= IZR (denote n (h + k) m su) - x <= 1/2.
Proof.
  intros Hv E. cbv zeta. unfold hmsStr in E. rewrite getHms_nonneg in E by auto. destruct (split60 (getDeg a / 15)) as ((h0, m0), s0) eqn:S.
  assert (0 <= getDeg a / 15).
  { unfold getDeg. pose proof PI_RGT_0. apply Rmult_le_pos; [|lra]. apply Rmult_le_pos; [lra|]. left. now apply Rinv_0_lt_compat. }
  apply split60_spec in S; auto. destruct S as (S1 & S2 & S3 & S4).
  assert (Hx : getHours a * 3600 * IZR (ten n) = (IZR h0 * 3600 + IZR m0 * 60) * IZR (ten n) + s0 * IZR (ten n)).
  { replace (getHours a) with (getDeg a / 15) by (unfold getHours, getDeg; field; apply PI_neq0). rewrite S4. field. }
  rewrite Hx. pose proof (rneR_sec s0 n S3) as Hsu. pose proof (rneR_spec (s0 * IZR (ten n))) as Hr. set (su0 := rneR (s0 * IZR (ten n))) in *.
  pose proof (ten_pos n) as Ht. assert (1 <= IZR (ten n)) as Ht' by (apply IZR_le; lia). unfold denote.
  destruct (Z.leb_spec (60 * ten n) su0) as [L|L]; [destruct (Z.eqb_spec (m0 + 1) 60) as [M|M]|]; apply pair_equal_spec in E; destruct E as (E1 & <-); apply pair_equal_spec in E1; destruct E1 as (<- & <-).
  - assert (su0 = 60 * ten n)%Z as Esu by lia. rewrite Esu in *. rewrite mult_IZR in Hr.
    split; [lia|]. split; [lia|]. assert (m0 = 59)%Z as -> by lia.
    destruct (Z.eqb_spec (h0 + 1) 24) as [H24|H24].
    + split; [lia|]. exists 24%Z. split; auto. assert (h0 = 23)%Z as -> by lia. change (0 + 24)%Z with 24%Z. repeat (rewrite plus_IZR || rewrite minus_IZR || rewrite mult_IZR). lra.
    + split; [lia|]. exists 0%Z. split; auto. rewrite Z.add_0_r. repeat (rewrite plus_IZR || rewrite minus_IZR || rewrite mult_IZR). lra.
  - assert (su0 = 60 * ten n)%Z as Esu by lia. rewrite Esu in *. rewrite mult_IZR in Hr.
    split; [lia|]. split; [lia|]. split; [lia|]. exists 0%Z. split; auto. rewrite Z.add_0_r. repeat (rewrite plus_IZR || rewrite minus_IZR || rewrite mult_IZR). lra.
  - split; [lia|]. split; [lia|]. split; [lia|]. exists 0%Z. split; auto. rewrite Z.add_0_r. repeat (rewrite plus_IZR || rewrite minus_IZR || rewrite mult_IZR). lra.
Qed.
