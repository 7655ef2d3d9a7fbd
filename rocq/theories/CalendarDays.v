(** * CalendarDays: jd_date enumerates the calendar *)
From Coq Require Import ZArith Lia Bool.
From Verif Require Import PyBase CalendarModel CalendarSpec CalendarProofs.
Open Scope Z_scope.

Lemma leap_g_4 y : leap_gregorian y = true -> y mod 4 = 0.
Proof. intros H. apply leap_g_spec in H. tauto. Qed.
Lemma leap_j_4 y : leap_julian y = true -> y mod 4 = 0.
Proof. apply Z.eqb_eq. Qed.

(** the Gregorian reform region of jd_date: from 300-03-01 *)
Definition after300 (c : date) : Prop := 301 <= yr c \/ (yr c = 300 /\ 3 <= mon c).
Lemma next_after300 leap c : valid leap c -> after300 c -> after300 (next_day leap c).
Proof.
  destruct c as [y m d]. unfold valid, after300, next_day. cbn [yr mon dy]. intros (Hm & Hd) H.
  destruct (d <? _); cbn [yr mon dy]; [lia|]. destruct (Z.ltb_spec m 12); cbn [yr mon dy]; lia.
Qed.
Lemma next_yr leap c : yr c <= yr (next_day leap c) <= yr c + 1.
Proof. destruct c as [y m d]. unfold next_day. cbn [yr mon dy]. destruct (d <? _); cbn [yr]; [lia|]. destruct (m <? 12); cbn [yr]; lia. Qed.

Lemma roundtrip_g c : valid leap_gregorian c -> after300 c -> jd_date GTrue (cal_day GTrue c) = c.
Proof.
  destruct c as [y m d]. intros Hv Ha. rewrite jd_date_eq, to_julian_cal; auto.
  apply (from_julian_cal leap_gregorian); auto using leap_g_4. unfold after300 in Ha. cbn in Ha. lia.
Qed.
Lemma roundtrip_j c : valid leap_julian c -> -4715 <= yr c -> jd_date GFalse (cal_day GFalse c) = c.
Proof. destruct c as [y m d]. intros Hv Ha. rewrite jd_date_eq. apply (from_julian_cal leap_julian); auto using leap_j_4. Qed.

Lemma surj_g (n : nat) : exists c, valid leap_gregorian c /\ after300 c /\ cal_day GTrue c = 1830692 + Z.of_nat n.
Proof.
  induction n as [|n (c & Hv & Ha & E)].
  - exists (Date 300 3 1). unfold valid, after300. cbn. split; [lia|]. split; [lia|reflexivity].
  - exists (next_day leap_gregorian c). split; [now apply valid_next|]. split; [now apply next_after300|].
    destruct c as [y m d]. rewrite cal_day_next_g; auto; [lia|]. unfold after300 in Ha. cbn in Ha. lia.
Qed.
Lemma surj_j (n : nat) : exists c, valid leap_julian c /\ -4715 <= yr c /\ cal_day GFalse c = -1095 + Z.of_nat n.
Proof.
  induction n as [|n (c & Hv & Ha & E)].
  - exists (Date (-4715) 1 1). unfold valid. cbn. split; [lia|]. split; [lia|reflexivity].
  - exists (next_day leap_julian c). split; [now apply valid_next|]. split; [pose proof (next_yr leap_julian c); lia|].
    destruct c as [y m d]. rewrite cal_day_next_j; auto. cbn [yr] in Ha. lia.
Qed.

Lemma inv_g z : 1830692 <= z -> exists c, jd_date GTrue z = c /\ valid leap_gregorian c /\ after300 c /\ cal_day GTrue c = z.
Proof.
  intros H. destruct (surj_g (Z.to_nat (z - 1830692))) as (c & Hv & Ha & E). exists c.
  replace (1830692 + Z.of_nat (Z.to_nat (z - 1830692))) with z in E by lia. rewrite <- E at 1. now rewrite roundtrip_g.
Qed.
Lemma inv_j z : -1095 <= z -> exists c, jd_date GFalse z = c /\ valid leap_julian c /\ -4715 <= yr c /\ cal_day GFalse c = z.
Proof.
  intros H. destruct (surj_j (Z.to_nat (z - -1095))) as (c & Hv & Ha & E). exists c.
  replace (-1095 + Z.of_nat (Z.to_nat (z - -1095))) with z in E by lia. rewrite <- E at 1. now rewrite roundtrip_j.
Qed.

Lemma succ_g z : 1830692 <= z -> jd_date GTrue (z + 1) = next_day leap_gregorian (jd_date GTrue z).
Proof.
  intros H. destruct (inv_g z H) as (c & -> & Hv & Ha & E). rewrite <- E.
  rewrite <- (roundtrip_g (next_day leap_gregorian c)); [|now apply valid_next|now apply next_after300].
  destruct c as [y m d]. rewrite cal_day_next_g; auto. unfold after300 in Ha. cbn in Ha. lia.
Qed.
Lemma succ_j z : -1095 <= z -> jd_date GFalse (z + 1) = next_day leap_julian (jd_date GFalse z).
Proof.
  intros H. destruct (inv_j z H) as (c & -> & Hv & Ha & E). rewrite <- E.
  rewrite <- (roundtrip_j (next_day leap_julian c)); [|now apply valid_next|pose proof (next_yr leap_julian c); lia].
  destruct c as [y m d]. rewrite cal_day_next_j; auto.
Qed.

(** ** the historical calendar *)
Definition before_reform (c : date) : bool :=
  (yr c <? 1582) || ((yr c =? 1582) && (mon c <? 10)) || ((yr c =? 1582) && (mon c =? 10) && (dy c <? 4)).
Lemma bounds_j y m d : valid leap_julian (Date y m d) -> -4715 <= y -> cal_day GFalse (Date y m d) < 2299160 -> before_reform (Date y m d) = true.
Proof.
  intros (Hm & Hd) Hy H. cbn [yr mon dy] in *.
  assert (A : y <= 1582 /\ (y = 1582 -> m <= 10 /\ (m = 10 -> d < 4))).
  { revert H. unfold cal_day, gregoffset, shift_ym. cbn [yr mon dy].
    assert (HL : leap_julian y = true <-> y mod 4 = 0) by (unfold leap_julian; apply Z.eqb_eq).
    destruct (month_cases _ Hm) as [E|[E|[E|[E|[E|[E|[E|[E|[E|[E|[E|E]]]]]]]]]]]; subst m; cbn [month_length] in *;
    repeat match goal with |- context [Z.ltb ?a ?b] => let v := eval cbv in (Z.ltb a b) in match v with true => idtac | false => idtac end; change (Z.ltb a b) with v; cbv iota end;
    destruct (leap_julian y); intros; zdiv. }
  clear H Hd. unfold before_reform. cbn [yr mon dy]. caseb; cbn; auto; lia.
Qed.
Lemma bounds_g y m d : valid leap_gregorian (Date y m d) -> 300 <= y -> 2299161 <= cal_day GTrue (Date y m d) ->
  before_reform (Date y m d) = false /\ (y, m, d) <> (1582, 10, 4).
Proof.
  intros (Hm & Hd) Hy H. cbn [yr mon dy] in *.
  assert (A : 1582 <= y /\ (y = 1582 -> 10 <= m /\ (m = 10 -> 4 < d))).
  { revert H. unfold cal_day, gregoffset, shift_ym. cbn [yr mon dy].
    pose proof (leap_g_spec y) as HL.
    destruct (month_cases _ Hm) as [E|[E|[E|[E|[E|[E|[E|[E|[E|[E|[E|E]]]]]]]]]]]; subst m; cbn [month_length] in *;
    repeat match goal with |- context [Z.ltb ?a ?b] => let v := eval cbv in (Z.ltb a b) in match v with true => idtac | false => idtac end; change (Z.ltb a b) with v; cbv iota end;
    destruct (leap_gregorian y); intros; zdiv. }
  split.
  - unfold before_reform. cbn [yr mon dy]. caseb; cbn; auto; lia.
  - intros E. injection E. lia.
Qed.
Lemma mixed_g c : before_reform c = false -> (yr c, mon c, dy c) <> (1582, 10, 4) -> next_day_mixed c = next_day leap_gregorian c.
Proof.
  destruct c as [y m d]. cbn [yr mon dy]. intros Hb Hn. unfold next_day_mixed. unfold before_reform in Hb. rewrite Hb.
  repeat match goal with |- match ?x with _ => _ end = _ => destruct x; auto end. congruence.
Qed.
Lemma mixed_j c : before_reform c = true -> next_day_mixed c = next_day leap_julian c.
Proof.
  destruct c as [y m d]. intros Hb. unfold next_day_mixed. unfold before_reform in Hb. rewrite Hb.
  repeat match goal with |- match ?x with _ => _ end = _ => destruct x; auto end. cbn in Hb. discriminate.
Qed.

Lemma none_lo z : z < 2299161 -> jd_date GNone z = jd_date GFalse z.
Proof. intros H. rewrite !jd_date_eq. unfold to_julian. rewrite Z.geb_leb. destruct (Z.leb_spec 2299161 z); auto; lia. Qed.
Lemma none_hi z : 2299161 <= z -> jd_date GNone z = jd_date GTrue z.
Proof. intros H. rewrite !jd_date_eq. unfold to_julian. rewrite Z.geb_leb. destruct (Z.leb_spec 2299161 z); auto; lia. Qed.

Lemma succ_mixed z : -1095 <= z -> jd_date GNone (z + 1) = next_day_mixed (jd_date GNone z).
Proof.
  intros H. destruct (Z.lt_trichotomy z 2299160) as [L|[->|L]].
  - rewrite !none_lo by lia. rewrite succ_j by lia. destruct (inv_j z H) as (c & -> & Hv & Hy & E).
    destruct c as [y m d]. symmetry. apply mixed_j. apply bounds_j; auto. lia.
  - reflexivity.
  - rewrite !none_hi by lia. rewrite succ_g by lia. destruct (inv_g z) as (c & -> & Hv & Ha & E); [lia|].
    destruct c as [y m d]. symmetry. unfold after300 in Ha. cbn [yr mon] in Ha.
    destruct (bounds_g y m d) as (B1 & B2); auto; try lia. apply mixed_g; auto.
Qed.
