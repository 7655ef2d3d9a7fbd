(** * SiteNext: C30, datetimes, nextRiseSetTransit and onSky *)
From Coq Require Import Reals ZArith List Bool Lia Lra.
From Verif Require Import PyBase RealTrig SiteModel SiteProps.
Import ListNotations.
Open Scope R_scope.

Lemma hrtodatetime_floor d t : hrtodatetime d t = (d * day_us + rfloor (t * 3600000000))%Z.
Proof.
  unfold hrtodatetime. pose proof (rfloor_spec t) as S1. set (h := rfloor t) in *. set (t1 := (t - IZR h) * 60). pose proof (rfloor_spec t1) as S2. set (m := rfloor t1) in *. set (t2 := (t1 - IZR m) * 60).
  pose proof (rfloor_spec t2) as S3. set (s := rfloor t2) in *. set (t3 := (t2 - IZR s) * 1000000). pose proof (rfloor_spec t3) as S4. set (u := rfloor t3) in *.
  assert (rfloor (t * 3600000000) = h * hour_us + m * 60000000 + s * 1000000 + u)%Z as ->; [|lia]. unfold hour_us. apply rfloor_unique. rewrite !plus_IZR, !mult_IZR. unfold t3, t2, t1 in *. lra.
Qed.
(** the moment [h] hours after midnight of date [d], as a datetime: rounded down to microseconds *)
Definition moment (d : Z) (h : R) : Z := rfloor ((24 * IZR d + h) * 3600000000).
Lemma hrto_moment d t : hrtodatetime d t = moment d t.
Proof.
  rewrite hrtodatetime_floor. unfold moment. replace ((24 * IZR d + t) * 3600000000) with (t * 3600000000 + IZR (d * day_us)).
  - rewrite rfloor_add_Z. lia.
  - unfold day_us, hour_us. rewrite !mult_IZR. lra.
Qed.
Lemma moment_day d t k : moment (d + k) t = (moment d t + k * day_us)%Z.
Proof.
  unfold moment. rewrite <- rfloor_add_Z. f_equal. unfold day_us, hour_us. rewrite !mult_IZR, plus_IZR. lra.
Qed.
Lemma moment_shift d t k : moment d (t + 24 * IZR k) = (moment d t + k * day_us)%Z.
Proof. unfold moment. rewrite <- rfloor_add_Z. f_equal. unfold day_us, hour_us. rewrite !mult_IZR. lra. Qed.
Lemma moment_mono d t d' t' : 24 * IZR d + t <= 24 * IZR d' + t' -> (moment d t <= moment d' t')%Z.
Proof. intros H. apply rfloor_mono. lra. Qed.
Lemma dayoff_0 ra l : 0 <= ra < 24 -> 0 <= l < 24 -> dayoff ra l = 0%Z.
Proof.
  intros A B. unfold dayoff. destruct (Rle_lt_dec 0 ((ra - l) / 24)) as [L|L].
  - rewrite pyint_nonneg by auto. apply rfloor_unique. lra.
  - rewrite pyint_neg by lra. assert (rfloor (- ((ra - l) / 24)) = 0%Z) as ->; [apply rfloor_unique; lra|lia].
Qed.
Lemma pymod_near x m k : 0 < m -> 0 <= x + IZR k * m < m -> pymod x m = x + IZR k * m.
Proof. intros Hm H. rewrite <- (pymod_shift x m k) by auto. now apply pymod_id. Qed.
(** rise and set as datetimes around a transit at T hours *)
Lemma rise_moment date T x : 0 <= T < 24 -> 0 < x <= halfday ->
  (if Rlt_dec (pymod (T - x) 24) T then hrtodatetime date (pymod (T - x) 24) else (hrtodatetime date (pymod (T - x) 24) - day_us)%Z) = moment date (T - x).
Proof.
  intros HT Hx. pose proof halfday_range. rewrite !hrto_moment. destruct (Rle_lt_dec 0 (T - x)) as [L|L].
  - rewrite (pymod_id (T - x)) by lra. destruct (Rlt_dec _ _); [auto|lra].
  - assert (pymod (T - x) 24 = T - x + 24 * IZR 1) as -> by (rewrite (pymod_near _ _ 1) by (rewrite ?Rmult_1_l; lra); ring). destruct (Rlt_dec _ _) as [Q|Q]; [lra|]. rewrite moment_shift. lia.
Qed.
Lemma set_moment date T x : 0 <= T < 24 -> 0 < x <= halfday ->
  (if Rlt_dec T (pymod (T + x) 24) then hrtodatetime date (pymod (T + x) 24) else (hrtodatetime date (pymod (T + x) 24) + day_us)%Z) = moment date (T + x).
Proof.
  intros HT Hx. pose proof halfday_range. rewrite !hrto_moment. destruct (Rlt_le_dec (T + x) 24) as [L|L].
  - rewrite (pymod_id (T + x)) by lra. destruct (Rlt_dec _ _); [auto|lra].
  - assert (pymod (T + x) 24 = T + x + 24 * IZR (-1)) as -> by (rewrite (pymod_near _ _ (-1)) by lra; ring). destruct (Rlt_dec _ _) as [Q|Q]; [lra|]. rewrite moment_shift. lia.
Qed.
(** what riseSetTransit gives with timeobj=True when the object culminates above the altitude *)
Lemma lha_pos lat dec alt : off_pole lat -> off_pole dec -> -90 <= alt -> alt < 90 - Rabs (lat - dec) -> coslha lat dec alt < 1 /\ (-1 <= coslha lat dec alt -> 0 < lha lat dec alt).
Proof.
  intros Hl Hd Ha H. pose proof (Rabs_pos (lat - dec)). assert (coslha lat dec alt < 1) as C.
  { destruct (alt_compare lat dec alt Hl Hd ltac:(lra) 0 0) as (_ & Q & _). destruct (C38_diurnal lat 0 dec 0) as (_ & _ & D). destruct D as (_ & D); [unfold off_pole in *; lra|unfold off_pole in *; lra|].
    rewrite D in Q. apply Q in H. replace (rad (15 * (0 - 0))) with 0 in H by (unfold rad; field). now rewrite cos_0 in H. }
  split; [auto|]. intros C'. pose proof sdk_pos. pose proof PI_RGT_0. pose proof (lha_range lat dec alt) as Q. destruct (proj1 Q) as [|E]; [auto|]. symmetry in E. symmetry in E. exfalso.
  assert (0 <= 0 <= halfday) as Z0 by (pose proof halfday_range; lra). assert (-1 <= coslha lat dec alt <= 1) as Cb by lra. apply (cos_lha lat dec alt 0 Cb Z0) in E. replace (rad (15 * (sdk * 0))) with 0 in E by (unfold rad; field). rewrite cos_0 in E. lra.
Qed.
Lemma rst_dt_cases lat ra dec lst0 off alt utc date : off_pole lat -> off_pole dec -> -90 <= alt -> alt < 90 - Rabs (lat - dec) -> 0 <= ra < 24 -> 0 <= lst0 date < 24 ->
  let T := localTime ra (lst0 date) off true utc in let x := lha lat dec alt in
  (coslha lat dec alt < -1 /\ riseSetTransit_dt lat ra dec lst0 off alt utc date = (None, None, Some (moment date T))) \/
  (-1 <= coslha lat dec alt < 1 /\ 0 < x <= halfday /\ riseSetTransit_dt lat ra dec lst0 off alt utc date = (Some (moment date (T - x)), Some (moment date (T + x)), Some (moment date T))).
Proof.
  intros Hl Hd Ha H Hr H0. cbv zeta. destruct (lha_pos lat dec alt Hl Hd Ha H) as (C & P). unfold riseSetTransit_dt, riseSetTransit. rewrite (dayoff_0 ra (lst0 date)), Z.add_0_r by auto.
  assert (0 <= localTime ra (lst0 date) off true utc < 24) as HT by (destruct (C38_localTime ra (lst0 date) off true) as (A & _ & _ & B & _); destruct utc; [exact B|exact A]).
  set (T := localTime ra (lst0 date) off true utc) in *. destruct (Rlt_dec (coslha lat dec alt) (-1)) as [L|L].
  - left. split; [auto|]. now rewrite hrto_moment.
  - right. destruct (Rlt_dec 1 (coslha lat dec alt)); [lra|]. split; [lra|]. specialize (P ltac:(lra)). pose proof (lha_range lat dec alt) as Q. split; [lra|]. rewrite rise_moment, set_moment, hrto_moment by lra. reflexivity.
Qed.
(** riseSetTransit with timeobj=True: for an object that culminates above the altitude, the datetimes are the moments of transit and x hours
    before and after it (with the x of C30_riseset: above the altitude exactly within x hours of the transit), rounded down to microseconds
    - provided that the transit in the zone of the result falls on the given date. *)
Theorem C30_datetimes : forall lat ra dec lst0 off alt (utc : bool) date, off_pole lat -> off_pole dec -> -90 <= alt -> alt < 90 - Rabs (lat - dec) -> 0 <= ra < 24 -> 0 <= lst0 date < 24 ->
  let tr := localTime ra (lst0 date) off true false in let T := if utc then tr - off else tr in 0 <= T < 24 ->
  match riseSetTransit_dt lat ra dec lst0 off alt utc date with
  | (None, None, Some t) => t = moment date T /\ forall h, alt < alt_at lat ra dec (lst0 date) h
  | (Some r, Some s, Some t) => t = moment date T /\ exists x, 0 < x <= halfday /\ r = moment date (T - x) /\ s = moment date (T + x) /\
      forall d, - halfday <= d <= halfday -> (alt <= alt_at lat ra dec (lst0 date) (tr + d) <-> Rabs d <= x)
  | _ => False
  end.
Proof.
  intros lat ra dec lst0 off alt utc date Hl Hd Ha H Hr H0. cbv zeta. intros HT. pose proof (Rabs_pos (lat - dec)). destruct (C30_riseset lat ra dec (lst0 date) off alt Hl Hd ltac:(lra)) as (_ & R).
  set (tr := localTime ra (lst0 date) off true false) in *. assert (localTime ra (lst0 date) off true utc = if utc then tr - off else tr) as ET.
  { destruct utc; [|reflexivity]. unfold localTime at 1. fold tr. change (pymod (ra - lst0 date) 24 / sdk) with tr. apply pymod_id; lra. }
  destruct (rst_dt_cases lat ra dec lst0 off alt utc date Hl Hd Ha H Hr H0) as [(C & ->)|(C & X & ->)]; rewrite ET.
  - split; [auto|]. unfold riseSetTransit in R. destruct (Rlt_dec _ _); [apply R|lra].
  - split; [auto|]. unfold riseSetTransit in R. destruct (Rlt_dec (coslha lat dec alt) (-1)); [lra|]. destruct (Rlt_dec 1 (coslha lat dec alt)); [lra|]. fold tr in R. exists (lha lat dec alt). split; [auto|]. split; [auto|]. split; [auto|].
    destruct R as (_ & _ & _ & x & Lx & _ & _ & E1 & E2 & R). assert (lha lat dec alt = x) as ->; [|exact R].
    assert (alt_at lat ra dec (lst0 date) (tr + lha lat dec alt) = alt) as E3. { unfold tr. rewrite alt_at_transit. apply (alt_compare lat dec alt Hl Hd ltac:(lra)). symmetry. replace (15 * (ra + sdk * lha lat dec alt - ra)) with (15 * (sdk * lha lat dec alt)) by ring. apply (cos_lha lat dec alt); [lra|lra|auto]. }
    assert (lha lat dec alt <= x) as L1. { assert (alt <= alt_at lat ra dec (lst0 date) (tr + lha lat dec alt)) as Q by lra. apply R in Q; [|lra]. rewrite Rabs_right in Q; lra. }
    destruct L1 as [L1|]; [|auto]. exfalso. assert (-1 <= coslha lat dec alt <= 1) as Cb by lra.
    unfold tr in E2. rewrite alt_at_transit in E2. apply (alt_compare lat dec alt Hl Hd ltac:(lra)) in E2. replace (15 * (ra + sdk * x - ra)) with (15 * (sdk * x)) in E2 by ring. symmetry in E2. apply (cos_lha lat dec alt x Cb Lx) in E2. lra.
Qed.
Print Assumptions C30_datetimes.
Example C30_datetimes_ex : off_pole 0 /\ off_pole 0 /\ -90 <= 0 /\ 0 < 90 - Rabs (0 - 0) /\ 0 <= localTime 6 0 0 true false - 0 < 24.
Proof.
  unfold off_pole. rewrite Rminus_0_r, Rabs_R0. destruct (C38_localTime 6 0 0 true) as (A & _). lra.
Qed.
(** With utc=True the UTC time of day is combined with the local date: when the transit falls on another date in UTC all three are off by a day. *)
Theorem C30_utc_date_refuted : forall lat ra dec lst0 off alt date r s t, off_pole lat -> off_pole dec -> -90 <= alt -> alt < 90 - Rabs (lat - dec) -> 0 <= ra < 24 -> 0 <= lst0 date < 24 ->
  let tr := localTime ra (lst0 date) off true false in riseSetTransit_dt lat ra dec lst0 off alt true date = (r, s, Some t) ->
  (24 <= tr - off < 48 -> t = (moment date (tr - off) - day_us)%Z) /\ (-24 <= tr - off < 0 -> t = (moment date (tr - off) + day_us)%Z).
Proof.
  intros lat ra dec lst0 off alt date r s t Hl Hd Ha H Hr H0. cbv zeta. set (tr := localTime ra (lst0 date) off true false). intros E.
  assert (t = moment date (localTime ra (lst0 date) off true true)) as -> by (destruct (rst_dt_cases lat ra dec lst0 off alt true date Hl Hd Ha H Hr H0) as [(_ & Q)|(_ & _ & Q)]; rewrite Q in E; congruence).
  unfold localTime. change (pymod (ra - lst0 date) 24 / sdk) with tr. split; intros G.
  - rewrite (pymod_near _ _ (-1)) by lra. replace (tr - off + IZR (-1) * 24) with (tr - off + 24 * IZR (-1)) by ring. rewrite moment_shift. lia.
  - rewrite (pymod_near _ _ 1) by lra. replace (tr - off + IZR 1 * 24) with (tr - off + 24 * IZR 1) by ring. rewrite moment_shift. lia.
Qed.
Print Assumptions C30_utc_date_refuted.
Example C30_utc_date_ex : -24 <= localTime 1 0 5 true false - 5 < 0.
Proof. unfold localTime. rewrite pymod_id by lra. pose proof sdk_pos. assert (0 < / sdk <= 1) by (split; [apply Rinv_0_lt_compat; lra|rewrite <- Rinv_1; apply Rinv_le_contravar; lra]). unfold Rdiv. lra. Qed.
(** An object that just touches the altitude gets a rise a day before and a set a day after its transit. *)
Theorem C30_grazing_refuted : forall date, exists t, riseSetTransit_dt 0 0 0 (fun _ => 0) 0 90 false date = (Some (t - day_us)%Z, Some (t + day_us)%Z, Some t).
Proof.
  intros date. exists (hrtodatetime date 0). assert (coslha 0 0 90 = 1) as C. { unfold coslha. replace (rad 0) with 0 by (unfold rad; field). replace (rad 90) with (PI / 2) by (unfold rad; field). rewrite sin_PI2, sin_0, cos_0. field. }
  assert (lha 0 0 90 = 0) as L by (unfold lha; rewrite C, acos_1; field; split; [apply PI_neq0|pose proof sdk_pos; lra]). unfold riseSetTransit_dt, riseSetTransit. rewrite C, L.
  assert (localTime 0 0 0 true false = 0) as ->. { unfold localTime. rewrite Rminus_0_r, pymod_id by lra. unfold Rdiv. ring. }
  destruct (Rlt_dec 1 (-1)); [lra|]. destruct (Rlt_dec 1 1); [lra|]. rewrite Rminus_0_r, Rplus_0_r, pymod_id by lra. destruct (Rlt_dec 0 0); [lra|]. rewrite dayoff_0 by lra. rewrite Z.add_0_r. reflexivity.
Qed.

(** ** nextRiseSetTransit and onSky *)
(** Facts about passes T d - x .. T d + x around one transit per date, consecutive transits at least a sidereal day apart. *)
Section Passes.
  Variable T : Z -> R. Variable x : R.
  Hypothesis HT : forall d, 0 <= T d < 24.
  Hypothesis Hgap : forall d, T d + 2 * halfday <= T (d + 1)%Z + 24.
  Hypothesis Hx : 0 < x <= halfday.
  Definition passes (d : Z) := (Some (moment d (T d - x)), Some (moment d (T d + x)), Some (moment d (T d))).
  Lemma set_mono d : (moment d (T d + x) <= moment (d + 1) (T (d + 1)%Z - x))%Z.
  Proof. apply moment_mono. rewrite plus_IZR. specialize (Hgap d). lra. Qed.
  Lemma pass_order d : (moment d (T d - x) <= moment d (T d) <= moment d (T d + x))%Z.
  Proof. split; apply moment_mono; lra. Qed.
  Lemma day_bounds now : (now / day_us * day_us <= now < now / day_us * day_us + day_us)%Z.
  Proof. unfold day_us, hour_us. pose proof (Z.div_mod now (24 * 3600000000) ltac:(lia)). pose proof (Z.mod_pos_bound now (24 * 3600000000) ltac:(lia)). lia. Qed.
  Lemma moment_0 d : moment d 0 = (d * day_us)%Z.
  Proof. unfold moment. rewrite Rplus_0_r. replace (24 * IZR d * 3600000000) with (IZR (d * day_us)) by (unfold day_us, hour_us; rewrite !mult_IZR; lra). apply rfloor_IZR. Qed.
  Lemma transit_day d : (d * day_us <= moment d (T d) < (d + 1) * day_us)%Z.
  Proof.
    specialize (HT d). split; [rewrite <- moment_0; apply moment_mono; lra|]. unfold moment. apply rfloor_lt. unfold day_us, hour_us. rewrite !mult_IZR, plus_IZR. lra.
  Qed.
  Lemma sets_before d e : (e <= d)%Z -> (moment e (T e + x) <= moment d (T d + x))%Z.
  Proof.
    intros L. replace d with (e + Z.of_nat (Z.to_nat (d - e)))%Z by lia. induction (Z.to_nat (d - e)) as [|n IH]; [rewrite Z.add_0_r; lia|].
    replace (e + Z.of_nat (S n))%Z with (e + Z.of_nat n + 1)%Z by lia. pose proof (set_mono (e + Z.of_nat n)). pose proof (pass_order (e + Z.of_nat n + 1)). lia.
  Qed.
  (** the first pass, over all dates, that has not set *)
  Lemma next_passes now : exists e, nextRiseSetTransit passes now = Ok (passes e) /\ (now / day_us - 1 <= e <= now / day_us + 1)%Z /\
    (now < moment e (T e + x))%Z /\ forall e', (now < moment e' (T e' + x))%Z -> (e <= e')%Z.
  Proof.
    pose proof (day_bounds now) as B. set (d := (now / day_us)%Z) in *. unfold nextRiseSetTransit, passes. fold d. cbv iota beta zeta. pose proof halfday_range as Hh.
    assert (forall e e', (now < moment e' (T e' + x))%Z -> (moment (e - 1) (T (e - 1)%Z + x) <= now)%Z -> (e <= e')%Z) as Fst. { intros e e' H1 H2. destruct (Z_le_gt_dec e e') as [|G]; [auto|]. pose proof (sets_before (e - 1) e' ltac:(lia)). lia. }
    destruct (Z.ltb_spec now (moment (d - 1) (T (d - 1)%Z + x))) as [L0|L0].
    - exists (d - 1)%Z. split; [reflexivity|]. split; [lia|]. split; [auto|]. intros e' He. apply Fst; auto.
      replace (d - 1 - 1)%Z with (d - 2)%Z by lia. apply Z.le_trans with (d * day_us)%Z; [|lia]. rewrite <- moment_0. apply moment_mono. rewrite minus_IZR. specialize (HT (d - 2)%Z). lra.
    - destruct (Z.ltb_spec now (moment d (T d + x))) as [L1|L1].
      + exists d. split; [reflexivity|]. split; [lia|]. split; [auto|]. intros e' He. apply Fst; auto.
      + exists (d + 1)%Z. split; [reflexivity|]. split; [lia|]. split; [pose proof (transit_day (d + 1)); pose proof (pass_order (d + 1)); lia|]. intros e' He. apply Fst; auto. now replace (d + 1 - 1)%Z with d by lia.
  Qed.
  Definition circ (d : Z) : option Z * option Z * option Z := (None, None, Some (moment d (T d))).
  Lemma next_circ now : exists e, nextRiseSetTransit circ now = Ok (circ e) /\ (now < moment e (T e))%Z /\ forall e', (now < moment e' (T e'))%Z -> (e <= e')%Z.
  Proof.
    pose proof (day_bounds now) as B. set (d := (now / day_us)%Z) in *. unfold nextRiseSetTransit, circ. fold d. cbv iota beta zeta.
    assert (forall e, (now < moment e (T e))%Z -> (d <= e)%Z) as Fst. { intros e He. destruct (Z_le_gt_dec d e); [auto|]. pose proof (transit_day e). assert ((e + 1) * day_us <= d * day_us)%Z by (apply Z.mul_le_mono_nonneg_r; [unfold day_us, hour_us; lia|lia]). lia. }
    destruct (Z.ltb_spec now (moment d (T d))) as [L|L].
    - exists d. auto.
    - exists (d + 1)%Z. split; [reflexivity|]. split; [pose proof (transit_day (d + 1)); lia|]. intros e' He. pose proof (Fst e' He). destruct (Z.eq_dec e' d) as [->|]; [lia|lia].
  Qed.
End Passes.
Lemma next_ext f g now : (forall d, f d = g d) -> nextRiseSetTransit f now = nextRiseSetTransit g now.
Proof. intros E. unfold nextRiseSetTransit. now rewrite !E. Qed.
(** a regular sidereal clock at midnight *)
Definition clock (lst0 : Z -> R) : Prop := forall d, 0 <= lst0 d < 24 /\ cong 24 (lst0 (d + 1)%Z) (lst0 d + 24 * sdk).
Lemma clock_gap lst0 ra : clock lst0 -> forall d, localTime ra (lst0 d) 0 true true + 2 * halfday <= localTime ra (lst0 (d + 1)%Z) 0 true true + 24.
Proof.
  intros C d. assert (forall l, localTime ra l 0 true true = localTime ra l 0 true false) as U. { intros l. destruct (C38_localTime ra l 0 true) as (A & _). unfold localTime in *. apply pymod_id in A; [|lra]. rewrite Rminus_0_r. exact A. }
  rewrite !U. destruct (C d) as (_ & (k & K)). destruct (C38_localTime ra (lst0 d) 0 true) as (R1 & (a & E1) & _). destruct (C38_localTime ra (lst0 (d + 1)%Z) 0 true) as (R2 & (b & E2) & _).
  set (t1 := localTime ra (lst0 d) 0 true false) in *. set (t2 := localTime ra (lst0 (d + 1)%Z) 0 true false) in *. pose proof sdk_pos as S.
  assert (sdk * (24 + t2 - t1) = 24 * IZR (b - a - k)) as E by (rewrite !minus_IZR; lra). assert (0 < sdk * (24 + t2 - t1)) as P by (apply Rmult_lt_0_compat; lra).
  assert ((0 < b - a - k)%Z) as Q by (apply lt_IZR; lra). assert (1 <= IZR (b - a - k)) as Q' by (apply IZR_le; lia).
  assert (2 * halfday <= 24 + t2 - t1); [|lra]. apply Rmult_le_reg_l with sdk; [lra|]. unfold halfday. replace (sdk * (2 * (12 / sdk))) with 24 by (field; lra). lra.
Qed.
(** For a site on UTC and a regular sidereal clock: nextRiseSetTransit of an object that culminates above the altitude returns what
    riseSetTransit gives for the first date on which the pass (for a circumpolar object: the transit) is not over. *)
Theorem C30_next : forall lat ra dec lst0 alt now, off_pole lat -> off_pole dec -> -90 <= alt -> alt < 90 - Rabs (lat - dec) -> 0 <= ra < 24 -> clock lst0 ->
  let rst := riseSetTransit_dt lat ra dec lst0 0 alt true in exists e, nextRiseSetTransit rst now = Ok (rst e) /\
  match rst e with
  | (Some r, Some s, Some t) => (r <= t <= s)%Z /\ (now < s)%Z /\ forall e' r' s' t', rst e' = (Some r', Some s', Some t') -> (now < s')%Z -> (e <= e')%Z
  | (None, None, Some t) => (now < t)%Z /\ forall e' t', rst e' = (None, None, Some t') -> (now < t')%Z -> (e <= e')%Z
  | _ => False
  end.
Proof.
  intros lat ra dec lst0 alt now Hl Hd Ha H Hr C rst. set (T := fun d => localTime ra (lst0 d) 0 true true). assert (forall d, 0 <= T d < 24) as HT by (intros d; apply C38_localTime). pose proof (clock_gap lst0 ra C) as G. fold T in G.
  pose proof (fun d => rst_dt_cases lat ra dec lst0 0 alt true d Hl Hd Ha H Hr (proj1 (C d))) as K. cbv zeta in K. fold rst in K. set (x := lha lat dec alt) in *.
  destruct (Rlt_le_dec (coslha lat dec alt) (-1)) as [L|L].
  - assert (forall d, rst d = circ T d) as E. { intros d. destruct (K d) as [(_ & Q)|(Q & _)]; [exact Q|lra]. } destruct (next_circ T HT now) as (e & N & P & F). exists e. rewrite (next_ext rst (circ T)), N, E by auto. split; [reflexivity|].
    cbn. split; [auto|]. intros e' t' E' Hn. apply F. rewrite E in E'. unfold circ in E'. injection E' as <-. auto.
  - assert (0 < x <= halfday) as Hx. { destruct (K 0%Z) as [(Q & _)|(_ & Q & _)]; [lra|exact Q]. } assert (forall d, rst d = passes T x d) as E. { intros d. destruct (K d) as [(Q & _)|(_ & _ & Q)]; [lra|exact Q]. }
    destruct (next_passes T x HT G Hx now) as (e & N & _ & P & F). exists e. rewrite (next_ext rst (passes T x)), N, E by auto. split; [reflexivity|]. unfold passes at 1. split; [apply (pass_order T x); auto|]. split; [auto|].
    intros e' r' s' t' E' Hn. apply F. rewrite E in E'. unfold passes in E'. injection E' as _ <- _. auto.
Qed.
Print Assumptions C30_next.
(** onSky is True iff the object is circumpolar or the moment is within the rise and set (exclusive) of some date. *)
Theorem C30_onsky : forall lat ra dec lst0 alt now, off_pole lat -> off_pole dec -> -90 <= alt -> alt < 90 - Rabs (lat - dec) -> 0 <= ra < 24 -> clock lst0 ->
  let rst := riseSetTransit_dt lat ra dec lst0 0 alt true in exists b, onSky rst now = Ok b /\
  (b = true <-> exists e, match rst e with (Some r, Some s, Some _) => (r <= now < s)%Z | (None, None, Some _) => True | _ => False end).
Proof.
  intros lat ra dec lst0 alt now Hl Hd Ha H Hr C rst. destruct (C30_next lat ra dec lst0 alt now Hl Hd Ha H Hr C) as (e & N & M). fold rst in N, M. unfold onSky. rewrite N.
  set (T := fun d => localTime ra (lst0 d) 0 true true). assert (forall d, 0 <= T d < 24) as HT by (intros d; apply C38_localTime). pose proof (clock_gap lst0 ra C) as G. fold T in G.
  pose proof (fun d => rst_dt_cases lat ra dec lst0 0 alt true d Hl Hd Ha H Hr (proj1 (C d))) as K. cbv zeta in K. fold rst in K. set (x := lha lat dec alt) in *.
  destruct (Rlt_le_dec (coslha lat dec alt) (-1)) as [L|L].
  - assert (forall d, rst d = circ T d) as E. { intros d. destruct (K d) as [(_ & Q)|(Q & _)]; [exact Q|lra]. } rewrite E. cbn. exists true. split; [auto|]. split; [|auto]. intros _. exists e. rewrite E. exact I.
  - assert (0 < x <= halfday) as Hx. { destruct (K 0%Z) as [(Q & _)|(_ & Q & _)]; [lra|exact Q]. } assert (forall d, rst d = passes T x d) as E. { intros d. destruct (K d) as [(Q & _)|(_ & _ & Q)]; [lra|exact Q]. }
    rewrite E in *. unfold passes in M |- *. destruct M as (O & S & F). eexists. split; [reflexivity|]. rewrite andb_true_iff, !Z.leb_le. split.
    + intros (A & _). exists e. rewrite E. unfold passes. lia.
    + intros (e' & P). rewrite E in P. unfold passes in P. assert ((e <= e')%Z) as Le by (eapply F; [rewrite E; reflexivity|lia]). split; [|lia].
      destruct (Z.eq_dec e e') as [->|Hne]; [lia|]. exfalso. pose proof (sets_before T x G Hx (e' - 1) e ltac:(lia)) as Q1. pose proof (set_mono T x G Hx (e' - 1)) as Q2. replace (e' - 1 + 1)%Z with e' in Q2 by lia. lia.
Qed.
Print Assumptions C30_onsky.
(** Such clocks exist. *)
Definition regular (c : R) (d : Z) : R := pymod (c + 24 * sdk * IZR d) 24.
Lemma regular_clock c : clock (regular c).
Proof.
  intros d. split; [apply pymod_range; lra|]. unfold regular. eapply cong_trans; [apply cong_mod|]. apply cong_sym. destruct (cong_mod 24 (c + 24 * sdk * IZR d)) as (k & ->). exists k. rewrite plus_IZR. ring.
Qed.
Lemma localTime_regular c ra d off ap k : 0 <= ra - c - 24 * sdk * IZR d + IZR k * 24 < 24 -> localTime ra (regular c d) off ap false = (ra - c - 24 * sdk * IZR d + IZR k * 24) / sdk.
Proof.
  intros H. unfold localTime, regular. destruct (cong_mod 24 (c + 24 * sdk * IZR d)) as (j & ->). replace (ra - (c + 24 * sdk * IZR d + IZR j * 24)) with (ra - c - 24 * sdk * IZR d + IZR (- j) * 24) by (rewrite opp_IZR; ring).
  rewrite pymod_shift by lra. rewrite (pymod_near _ _ k) by lra. reflexivity.
Qed.
(** On a date with two transits (one just after midnight, one just before the next) the second pass is missed: the object is above the
    altitude, yet onSky is False. *)
Theorem C30_second_transit_refuted : exists lst0 now, clock lst0 /\ 0 < alt_at 0 0 0 (lst0 0%Z) (IZR now / 3600000000) /\ (now / day_us = 0)%Z /\ onSky (riseSetTransit_dt 0 0 0 lst0 0 0 true) now = Ok false.
Proof.
  set (lst0 := regular (- (sdk / 100))). exists lst0, 86040000000%Z. pose proof (regular_clock (- (sdk / 100))) as C. fold lst0 in C. split; [exact C|]. pose proof sdk_pos as S. pose proof PI_RGT_0 as Pi.
  assert (off_pole 0) as O by (unfold off_pole; lra). assert (coslha 0 0 0 = 0) as Cl. { unfold coslha. replace (rad 0) with 0 by (unfold rad; field). rewrite sin_0, cos_0. field. }
  assert (lha 0 0 0 = 6 / sdk) as El by (unfold lha; rewrite Cl, acos_0; field; lra).
  assert (/ sdk > 99 / 100) as Is. { apply Rmult_gt_reg_l with sdk; [lra|]. rewrite Rinv_r by lra. unfold sdk. lra. } assert (/ sdk < 9974 / 10000) as Is2. { apply Rmult_lt_reg_l with sdk; [lra|]. rewrite Rinv_r by lra. unfold sdk. lra. }
  assert (localTime 0 (lst0 0%Z) 0 true false = 1 / 100) as T0. { unfold lst0. rewrite (localTime_regular _ _ _ _ _ 0); [field; lra|lra]. }
  assert (localTime 0 (lst0 1%Z) 0 true false = 1 / 100 + 48 / sdk - 24) as T1. { unfold lst0. rewrite (localTime_regular _ _ _ _ _ 2); [field; lra|unfold sdk; lra]. }
  assert (localTime 0 (lst0 (-1)%Z) 0 true false = 1 / 100 + 24 - 24 / sdk) as Tm. { unfold lst0. rewrite (localTime_regular _ _ _ _ _ (-1)); [field; lra|unfold sdk; lra]. }
  assert (forall l, localTime 0 l 0 true true = localTime 0 l 0 true false) as U. { intros l. destruct (C38_localTime 0 l 0 true) as (A & _). unfold localTime in *. apply pymod_id in A; [|lra]. rewrite Rminus_0_r. exact A. }
  split; [|split; [reflexivity|]].
  - replace (86040000000 / 3600000000) with (localTime 0 (lst0 0%Z) 0 true false + 2389 / 100) by (rewrite T0; field). rewrite alt_at_transit. apply (alt_compare 0 0 0 O O ltac:(lra)). rewrite Cl.
    replace (rad (15 * (0 + sdk * (2389 / 100) - 0))) with (rad (15 * (sdk * (2389 / 100) - 24)) + IZR 1 * (2 * PI)) by (unfold rad; field). rewrite cos_2kpi. apply cos_gt_0; unfold rad, sdk; lra.
  - pose proof (fun d => rst_dt_cases 0 0 0 lst0 0 0 true d O O ltac:(lra) ltac:(rewrite Rminus_0_r, Rabs_R0; lra) ltac:(lra) (proj1 (C d))) as K. cbv zeta in K. rewrite Cl, El in K.
    destruct (K 0%Z) as [(Q & _)|(_ & _ & E0)]; [lra|]. destruct (K 1%Z) as [(Q & _)|(_ & _ & E1)]; [lra|]. destruct (K (-1)%Z) as [(Q & _)|(_ & _ & Em)]; [lra|]. rewrite U in E0, E1, Em. rewrite T0 in E0. rewrite T1 in E1. rewrite Tm in Em.
    unfold onSky, nextRiseSetTransit. change (86040000000 / day_us)%Z with 0%Z. change (0 + 1)%Z with 1%Z. change (0 - 1)%Z with (-1)%Z. rewrite E0, E1, Em. cbv zeta iota beta.
    assert (moment (-1) (1 / 100 + 24 - 24 / sdk + 6 / sdk) <= 86040000000)%Z as A1. { apply Z.lt_le_incl. unfold moment. apply rfloor_lt. unfold Rdiv. lra. }
    assert (moment 0 (1 / 100 + 6 / sdk) <= 86040000000)%Z as A2. { apply Z.lt_le_incl. unfold moment. apply rfloor_lt. unfold Rdiv. lra. }
    destruct (Z.ltb_spec 86040000000 (moment (-1) (1 / 100 + 24 - 24 / sdk + 6 / sdk))); [lia|]. destruct (Z.ltb_spec 86040000000 (moment 0 (1 / 100 + 6 / sdk))); [lia|].
    assert (86040000001 <= moment 1 (1 / 100 + 48 / sdk - 24 - 6 / sdk))%Z as A3. { unfold moment. apply rfloor_le. unfold Rdiv. lra. }
    destruct (Z.leb_spec (moment 1 (1 / 100 + 48 / sdk - 24 - 6 / sdk)) 86040000000); [lia|]. reflexivity.
Qed.
Print Assumptions C30_second_transit_refuted.
