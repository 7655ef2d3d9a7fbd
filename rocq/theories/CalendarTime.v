(** * CalendarTime: the time of day on the binary64 grid *)
From Coq Require Import ZArith Lia Bool.
From Verif Require Import PyBase CalendarModel CalendarSpec CalendarProofs CalendarDays.
Open Scope Z_scope.

Ltac zd := Z.to_euclidean_division_equations; lia.

Lemma rne_spec n d : 0 < d -> 2 * n - d <= 2 * d * rne n d <= 2 * n + d.
Proof.
  intros Hd. unfold rne. pose proof (Z.div_mod n d ltac:(lia)) as E. pose proof (Z.mod_pos_bound n d Hd) as B.
  set (q := n / d) in *. set (r := n mod d) in *.
  rewrite Z.gtb_ltb. destruct (Z.ltb_spec (2 * r) d); [nia|]. destruct (Z.ltb_spec d (2 * r)); [nia|].
  destruct (Z.even q); nia.
Qed.
Lemma rne_unique n d q : 0 < d -> 2 * n - d < 2 * d * q < 2 * n + d -> rne n d = q.
Proof. intros Hd H. pose proof (rne_spec n d Hd). nia. Qed.
Lemma rne_exact q d : 0 < d -> rne (q * d) d = q.
Proof. intros Hd. apply rne_unique; auto. nia. Qed.
Lemma round53_spec p : 0 <= p -> p - 2 <= round53 p <= p + 2 /\ 0 <= round53 p.
Proof.
  intros Hp. unfold round53. destruct (Z.ltb_spec p (2 ^ 53)); [lia|].
  destruct (p <? 2 ^ 54).
  - pose proof (rne_spec p 2 ltac:(lia)). lia.
  - pose proof (rne_spec p 4 ltac:(lia)). lia.
Qed.

Lemma hms_spec s u : 0 <= s < 86400 -> 0 <= u < 1000000 -> valid_clock (hms s u) /\ seconds (hms s u) = s /\ usec (hms s u) = u.
Proof. intros Hs Hu. unfold hms, valid_clock, seconds. cbn [hour minute second usec]. zd. Qed.
Lemma hms_clock t : valid_clock t -> hms (seconds t) (usec t) = t.
Proof. destruct t as [h m s u]. unfold valid_clock, seconds, hms. cbn [hour minute second usec]. intros. f_equal; zd. Qed.

Lemma G_val : G = 2147483648. Proof. reflexivity. Qed.
Lemma rne_second : rne (1000000 * G) 86400000000 = 24855. Proof. reflexivity. Qed.

Lemma default_spec g k : exists z t, jd_to_cal g 1000000 k = Ok (jd_date g z, t) /\ valid_clock t /\ usec t = 0 /\
  (z * 86400 + seconds t - 1) * G + 11648 <= (k + 2 ^ 30) * 86400 < (z * 86400 + seconds t) * G + 11648.
Proof.
  unfold jd_to_cal. cbn [Z.gtb Z.leb Z.eqb Z.compare Pos.compare Pos.compare_cont Pos.eqb]. rewrite rne_second.
  set (k' := k + 2 ^ 30 + 24855). exists (k' / G), (hms (k' mod G * 86400 / G) 0).
  rewrite G_val in *. destruct (hms_spec (k' mod 2147483648 * 86400 / 2147483648) 0) as (V & S & U); [zd|lia|].
  split; [reflexivity|]. split; [exact V|]. split; [exact U|]. rewrite S.
  replace (k + 2 ^ 30) with (k' - 24855) by (unfold k'; lia). clearbody k'. clear. zd.
Qed.

Lemma us_range dec : 0 <= dec < G -> 0 <= round53 (dec * 10546875) / 2 ^ 18 < 86400000000.
Proof. intros H. rewrite G_val in H. pose proof (round53_spec (dec * 10546875) ltac:(lia)). change (2^18) with 262144. zd. Qed.

Lemma zero_spec g r k : r <= 0 -> exists z t, jd_to_cal g r k = Ok (jd_date g z, t) /\ valid_clock t /\
  (z * 86400000000 + microseconds t) * 2 ^ 18 - 2 <= (k + 2 ^ 30) * 10546875 < (z * 86400000000 + microseconds t + 1) * 2 ^ 18 + 2.
Proof.
  intros Hr. unfold jd_to_cal. rewrite !Z.gtb_ltb.
  destruct (Z.ltb_spec 1000000 r); [lia|]. destruct (Z.leb_spec r 0); [|lia]. destruct (Z.eqb_spec r 1000000); [lia|].
  destruct (Z.ltb_spec 0 r); [lia|]. rewrite Z.add_0_r. set (k' := k + 2 ^ 30). cbv zeta.
  set (us := round53 (k' mod G * 10546875) / 2 ^ 18).
  assert (Hus : 0 <= us < 86400000000) by (apply us_range; apply Z.mod_pos_bound; reflexivity).
  exists (k' / G), (hms (us / 1000000) (us - 1000000 * (us / 1000000))).
  destruct (hms_spec (us / 1000000) (us - 1000000 * (us / 1000000))) as (V & S & U); [zd|zd|].
  split; [reflexivity|]. split; [exact V|]. unfold microseconds. rewrite S, U.
  replace (us / 1000000 * 1000000 + (us - 1000000 * (us / 1000000))) with us by lia.
  assert (Hm : 0 <= k' mod G < G) by (apply Z.mod_pos_bound; reflexivity).
  pose proof (round53_spec (k' mod G * 10546875) ltac:(lia)) as Hr53. unfold us. rewrite G_val in *. clearbody k'.
  change (2^18) with 262144 in *.
  set (R := round53 (k' mod 2147483648 * 10546875)) in *. clearbody R. zd.
Qed.

Lemma snap_spec g r k : 0 < r < 1000000 -> exists z t, jd_to_cal g r k = Ok (jd_date g z, t) /\ valid_clock t /\
  (Z.abs ((z * 86400000000 + microseconds t) * 2 ^ 18 - (k + 2 ^ 30) * 10546875) <= 22 * 2 ^ 18 \/
   (usec t = 0 /\ Z.abs ((z * 86400000000 + microseconds t) * 2 ^ 18 - (k + 2 ^ 30) * 10546875) <= (r + 22) * 2 ^ 18)).
Proof.
  intros Hr. unfold jd_to_cal. rewrite !Z.gtb_ltb.
  destruct (Z.ltb_spec 1000000 r); [lia|]. destruct (Z.leb_spec r 0); [lia|]. destruct (Z.eqb_spec r 1000000); [lia|].
  destruct (Z.ltb_spec 0 r); [|lia].
  pose proof (rne_spec (r * G) 86400000000 ltac:(lia)) as Hrf. set (rf := rne (r * G) 86400000000) in *.
  set (k' := k + 2 ^ 30 + rf). cbv zeta.
  set (us := round53 (k' mod G * 10546875) / 2 ^ 18).
  assert (Hm : 0 <= k' mod G < G) by (apply Z.mod_pos_bound; reflexivity).
  assert (Hus : 0 <= us < 86400000000) by (apply us_range; auto).
  pose proof (round53_spec (k' mod G * 10546875) ltac:(lia)) as Hr53.
  set (us' := (if us - us / 1000000 * 1000000 <? 2 * r then us / 1000000 * 1000000 + r else us) - r).
  assert (Hus' : 0 <= us' < 86400000000 /\ ((us' = us - r) \/ (us' = us / 1000000 * 1000000 /\ -r <= us' + r - us <= r))).
  { unfold us'. destruct (Z.ltb_spec (us - us / 1000000 * 1000000) (2 * r)); split; try zd. }
  destruct Hus' as (Hus' & Hcase).
  exists (k' / G), (hms (us' / 1000000) (us' - 1000000 * (us' / 1000000))).
  destruct (hms_spec (us' / 1000000) (us' - 1000000 * (us' / 1000000))) as (V & S & U); [zd|zd|].
  split; [reflexivity|]. split; [exact V|]. unfold microseconds. rewrite S, U.
  replace (us' / 1000000 * 1000000 + (us' - 1000000 * (us' / 1000000))) with us' by lia.
  replace (k + 2 ^ 30) with (k' - rf) by (unfold k'; lia).
  assert (E : Z.abs ((k' / G * 86400000000 + us) * 262144 - k' * 10546875) <= 262144 + 2).
  { unfold us. rewrite G_val in *. clearbody k'. change (2^18) with 262144 in *.
    set (R := round53 (k' mod 2147483648 * 10546875)) in *. clearbody R. zd. }
  rewrite G_val in *. change (2 ^ 18) with 262144 in *. clearbody us us' rf k'.
  destruct Hcase as [->|(-> & Hcase)].
  - left. lia.
  - right. split; [zd|]. lia.
Qed.

(** ** Round trip *)
Lemma cal_to_jd_err g c t : valid_clock t ->
  Z.abs (((cal_to_jd g c t) + 2 ^ 30) * 86400 - (cal_day g c * 86400 + seconds t) * G) <= 129600.
Proof.
  intros V. unfold cal_to_jd, seconds.
  pose proof (rne_spec (hour t * G) 24 ltac:(lia)). pose proof (rne_spec (minute t * G) 1440 ltac:(lia)).
  pose proof (rne_spec (second t * G) 86400 ltac:(lia)). lia.
Qed.

Lemma roundtrip_time g g' r c t : valid_clock t -> usec t = 0 -> 100 <= r <= 999900 ->
  jd_to_cal g' r (cal_to_jd g c t) = Ok (jd_date g' (cal_day g c), t).
Proof.
  intros V U0 Hr. pose proof (cal_to_jd_err g c t V) as He.
  assert (Hs : 0 <= seconds t < 86400) by (unfold seconds; destruct V; lia).
  set (k := cal_to_jd g c t) in *. clearbody k. set (zc := cal_day g c) in *. clearbody zc.
  unfold jd_to_cal. rewrite !Z.gtb_ltb.
  destruct (Z.ltb_spec 1000000 r); [lia|]. destruct (Z.leb_spec r 0); [lia|]. destruct (Z.eqb_spec r 1000000); [lia|].
  destruct (Z.ltb_spec 0 r); [|lia].
  pose proof (rne_spec (r * G) 86400000000 ltac:(lia)) as Hrf. set (rf := rne (r * G) 86400000000) in *.
  set (k' := k + 2 ^ 30 + rf). cbv zeta.
  assert (Hk' : Z.abs (k' * 10546875 - (zc * 86400000000 + seconds t * 1000000 + r) * 262144) <= 81 * 262144).
  { unfold k'. rewrite G_val in *. lia. }
  clearbody k' rf. clear Hrf He.
  assert (Hz : k' / G = zc). { rewrite G_val. zd. }
  assert (Hm : 0 <= k' mod G < G) by (apply Z.mod_pos_bound; reflexivity).
  pose proof (round53_spec (k' mod G * 10546875) ltac:(lia)) as Hr53.
  set (us := round53 (k' mod G * 10546875) / 2 ^ 18).
  assert (Hus : seconds t * 1000000 + r - 83 <= us <= seconds t * 1000000 + r + 83).
  { unfold us. rewrite G_val in *. change (2^18) with 262144.
    set (R := round53 (k' mod 2147483648 * 10546875)) in *. clearbody R. zd. }
  clearbody us. clear Hr53 Hm Hk'.
  rewrite Hz. assert (Hd : us / 1000000 = seconds t) by zd. rewrite Hd.
  destruct (Z.ltb_spec (us - seconds t * 1000000) (2 * r)); [|lia].
  replace (seconds t * 1000000 + r - r) with (seconds t * 1000000) by lia.
  rewrite Z.div_mul by lia. replace (seconds t * 1000000 - 1000000 * seconds t) with 0 by lia.
  rewrite <- U0. now rewrite hms_clock.
Qed.

(** with the default rounding, the answer is the same second or the next *)
Lemma roundtrip_default g g' c t : valid_clock t -> usec t = 0 -> exists z t',
  jd_to_cal g' 1000000 (cal_to_jd g c t) = Ok (jd_date g' z, t') /\ valid_clock t' /\ usec t' = 0 /\
  0 <= (z * 86400 + seconds t') - (cal_day g c * 86400 + seconds t) <= 1.
Proof.
  intros V U. destruct (default_spec g' (cal_to_jd g c t)) as (z & t' & E & V' & U' & B).
  exists z, t'. split; [exact E|]. split; [exact V'|]. split; [exact U'|].
  pose proof (cal_to_jd_err g c t V) as He. rewrite G_val in *. lia.
Qed.
