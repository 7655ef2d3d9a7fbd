(** * CalendarProofs *)
From Coq Require Import ZArith Lia Bool.
From Verif Require Import PyBase CalendarModel CalendarSpec.
Open Scope Z_scope.

Ltac zdiv := Z.to_euclidean_division_equations; lia.
Ltac caseb := repeat match goal with
  | |- context [?a <? ?b] => destruct (Z.ltb_spec a b)
  | |- context [?a =? ?b] => destruct (Z.eqb_spec a b)
  | |- context [?a >? ?b] => rewrite (Z.gtb_ltb a b)
  | |- context [?a >=? ?b] => rewrite (Z.geb_leb a b)
  | |- context [?a <=? ?b] => destruct (Z.leb_spec a b)
  end.

Lemma month_cases m : 1 <= m <= 12 -> m=1\/m=2\/m=3\/m=4\/m=5\/m=6\/m=7\/m=8\/m=9\/m=10\/m=11\/m=12.
Proof. lia. Qed.

Lemma leap_g_spec y : leap_gregorian y = true <-> (y mod 4 = 0 /\ (y mod 100 <> 0 \/ y mod 400 = 0)).
Proof. unfold leap_gregorian. rewrite andb_true_iff, orb_true_iff, negb_true_iff, !Z.eqb_eq, Z.eqb_neq. tauto. Qed.

Definition leapof (g : greg) : Z -> bool := match g with GTrue => leap_gregorian | _ => leap_julian end.

Lemma valid_next leap c : valid leap c -> valid leap (next_day leap c).
Proof.
  destruct c as [y m d]. unfold valid, next_day. cbn [yr mon dy]. intros (Hm & Hd).
  destruct (Z.ltb_spec d (month_length leap y m)); cbn [yr mon dy]; [lia|].
  destruct (Z.ltb_spec m 12); cbn [yr mon dy].
  - split; [lia|]. assert (Hm' : 1 <= m + 1 <= 12) by lia.
    destruct (month_cases _ Hm') as [E|[E|[E|[E|[E|[E|[E|[E|[E|[E|[E|E]]]]]]]]]]]; rewrite E; cbn; try lia.
    destruct (leap y); lia.
  - cbn. lia.
Qed.

(** day arithmetic of one step *)
Lemma cal_day_next_g y m d : -4715 <= y -> valid leap_gregorian (Date y m d) ->
  cal_day GTrue (next_day leap_gregorian (Date y m d)) = cal_day GTrue (Date y m d) + 1.
Proof.
  unfold valid, next_day. cbn [yr mon dy]. intros Hy (Hm & Hd).
  pose proof (leap_g_spec y) as HL.
  destruct (month_cases _ Hm) as [E|[E|[E|[E|[E|[E|[E|[E|[E|[E|[E|E]]]]]]]]]]]; subst m; cbn [month_length] in *;
  destruct (leap_gregorian y);
  match goal with |- context [d <? ?n] => destruct (Z.ltb_spec d n) end; cbn [Z.ltb Z.compare Pos.compare Pos.compare_cont];
  unfold cal_day, gregoffset, shift_ym; cbn [yr mon dy]; 
  repeat match goal with |- context [Z.ltb ?a ?b] => let v := eval cbv in (Z.ltb a b) in change (Z.ltb a b) with v; cbv iota end.
  all: try zdiv.
Qed.

Lemma cal_day_next_j y m d : -4715 <= y -> valid leap_julian (Date y m d) ->
  cal_day GFalse (next_day leap_julian (Date y m d)) = cal_day GFalse (Date y m d) + 1.
Proof.
  unfold valid, next_day. cbn [yr mon dy]. intros Hy (Hm & Hd).
  assert (HL : leap_julian y = true <-> y mod 4 = 0) by (unfold leap_julian; apply Z.eqb_eq).
  destruct (month_cases _ Hm) as [E|[E|[E|[E|[E|[E|[E|[E|[E|[E|[E|E]]]]]]]]]]]; subst m; cbn [month_length] in *;
  destruct (leap_julian y);
  match goal with |- context [d <? ?n] => destruct (Z.ltb_spec d n) end; cbn [Z.ltb Z.compare Pos.compare Pos.compare_cont];
  unfold cal_day, gregoffset, shift_ym; cbn [yr mon dy]; 
  repeat match goal with |- context [Z.ltb ?a ?b] => let v := eval cbv in (Z.ltb a b) in change (Z.ltb a b) with v; cbv iota end.
  all: try zdiv.
Qed.

(** ** Round trip.  [Jul c]: the day number counted in the Julian scale of jd_date. *)
Definition from_julian (j : Z) : date :=
  let b := j + 1524 in
  let c := Z.quot (100 * b - 12210) 36525 in
  let d := Z.quot (1461 * c) 4 in
  let e := Z.quot (10000 * (b - d)) 306001 in
  let day := b - d - Z.quot (306001 * e) 10000 in
  let month := if e <? 14 then e - 1 else e - 13 in
  let year := if month >? 2 then c - 4716 else c - 4715 in
  Date year month day.
Lemma jd_date_eq g z : jd_date g z = from_julian (to_julian g z).
Proof. reflexivity. Qed.

(** [leap] is any calendar whose leap years are among the multiples of four. *)
Lemma from_julian_cal (leap : Z -> bool) y m d : (forall y, leap y = true -> y mod 4 = 0) ->
  -4715 <= y -> valid leap (Date y m d) ->
  from_julian (cal_day GFalse (Date y m d)) = Date y m d.
Proof.
  intros Hl Hy (Hm & Hd). cbn [yr mon dy] in *.
  assert (Hd' : 1 <= d <= month_length leap_julian y m).
  { split; [lia|]. destruct Hd as (_ & Hd). etransitivity; [exact Hd|]. 
    destruct (month_cases _ Hm) as [E|[E|[E|[E|[E|[E|[E|[E|[E|[E|[E|E]]]]]]]]]]]; subst m; cbn; try lia.
    unfold leap_julian. destruct (leap y) eqn:E; [rewrite (Hl _ E); cbn; lia|destruct (y mod 4 =? 0); lia]. }
  clear Hd Hl. unfold from_julian.
  set (Y := fst (shift_ym y m)). set (M := snd (shift_ym y m)).
  set (D := Z.quot (306001 * (M + 1)) 10000 + d).
  assert (HD : cal_day GFalse (Date y m d) + 1524 = 1461 * (Y + 4716) / 4 + D).
  { unfold cal_day, gregoffset, D, Y, M. cbn [yr mon dy]. unfold shift_ym.
    destruct (Z.ltb_spec m 3); cbn [fst snd]; rewrite (Z.quot_div_nonneg (1461 * _)) by lia; lia. }
  rewrite HD.
  assert (HL : leap_julian y = true <-> y mod 4 = 0) by (unfold leap_julian; apply Z.eqb_eq).
  assert (Hc : Z.quot (100 * (1461 * (Y + 4716) / 4 + D) - 12210) 36525 = Y + 4716 /\ 0 <= Y + 4716).
  { unfold D, Y, M. unfold shift_ym.
    destruct (month_cases _ Hm) as [E|[E|[E|[E|[E|[E|[E|[E|[E|[E|[E|E]]]]]]]]]]]; subst m; cbn [month_length] in *;
    repeat match goal with |- context [Z.ltb ?a ?b] => let v := eval cbv in (Z.ltb a b) in change (Z.ltb a b) with v; cbv iota end;
    cbn [fst snd]; destruct (leap_julian y); zdiv. }
  destruct Hc as (Hc & Hpos). rewrite Hc. cbv zeta.
  rewrite (Z.quot_div_nonneg (1461 * _)) by lia.
  replace (1461 * (Y + 4716) / 4 + D - 1461 * (Y + 4716) / 4) with D by lia.
  assert (He : Z.quot (10000 * D) 306001 = M + 1).
  { unfold D, M. unfold shift_ym.
    destruct (month_cases _ Hm) as [E|[E|[E|[E|[E|[E|[E|[E|[E|[E|[E|E]]]]]]]]]]]; subst m; cbn [month_length] in *;
    repeat match goal with |- context [Z.ltb ?a ?b] => let v := eval cbv in (Z.ltb a b) in change (Z.ltb a b) with v; cbv iota end;
    cbn [fst snd]; destruct (leap_julian y); zdiv. }
  rewrite He. replace (D - Z.quot (306001 * (M + 1)) 10000) with d by (unfold D; lia).
  unfold Y, M, shift_ym.
  destruct (month_cases _ Hm) as [E|[E|[E|[E|[E|[E|[E|[E|[E|[E|[E|E]]]]]]]]]]]; subst m; cbn; f_equal; lia.
Qed.

(** Gregorian: undoing the century correction, from March 300 on. *)
Lemma to_julian_cal y m d : valid leap_gregorian (Date y m d) -> 301 <= y \/ (y = 300 /\ 3 <= m) ->
  to_julian GTrue (cal_day GTrue (Date y m d)) = cal_day GFalse (Date y m d).
Proof.
  intros (Hm & Hd) Hy. cbn [yr mon dy] in *. unfold to_julian.
  set (Y := fst (shift_ym y m)). set (M := snd (shift_ym y m)).
  assert (Hz : cal_day GTrue (Date y m d) = cal_day GFalse (Date y m d) + (2 - Y / 100 + Y / 100 / 4)).
  { unfold cal_day, gregoffset, Y, M. cbn [yr mon dy]. unfold shift_ym. destruct (m <? 3); cbn [fst snd]; lia. }
  pose proof (leap_g_spec y) as HL.
  assert (Ha : Z.quot (4 * cal_day GTrue (Date y m d) - 7468865) 146097 = Y / 100 - 4 \/ (Y / 100 = 3 /\ Z.quot (4 * cal_day GTrue (Date y m d) - 7468865) 146097 = 0)).
  { unfold cal_day, gregoffset, Y. cbn [yr mon dy]. unfold shift_ym.
    destruct (month_cases _ Hm) as [E|[E|[E|[E|[E|[E|[E|[E|[E|[E|[E|E]]]]]]]]]]]; subst m; cbn [month_length] in *;
    repeat match goal with |- context [Z.ltb ?a ?b] => let v := eval cbv in (Z.ltb a b) in change (Z.ltb a b) with v; cbv iota end;
    cbn [fst snd]; destruct (leap_gregorian y); zdiv. }
  destruct Ha as [->|(E & ->)]; rewrite Hz; zdiv.
Qed.
