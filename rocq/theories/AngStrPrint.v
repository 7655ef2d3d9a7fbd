(** * AngStrPrint: reading what was printed (C92) *)
From Coq Require Import List Bool Arith Reals ZArith String Ascii Lia Lra.
From Verif Require Import PyBase RealTrig PubModel PubComments AngleModel AngleSexa AngleProps AngStrModel AngStrRe AngStrRead.
Import ListNotations.
Open Scope R_scope.

(** ** Digits *)
Lemma place_app a b : place (a ++ b) = (place a * 10 ^ List.length b + place b)%nat.
Proof. induction a as [|x a IH]; cbn [app place]; [lia|]. rewrite IH, app_length, Nat.pow_add_r. nia. Qed.
Lemma digit_in k : (k < 10)%nat -> In (digit k) digs.
Proof. intros K. do 10 (destruct k as [|k]; [cbn; tauto|]). lia. Qed.
Lemma digit_val k : (k < 10)%nat -> place [digit k] = k.
Proof. intros K. do 10 (destruct k as [|k]; [reflexivity|]). lia. Qed.
Lemma decimal_go_place f : forall n, (n < f)%nat -> place (decimal_go f n) = n.
Proof.
  induction f as [|f IH]; intros n N; [lia|]. cbn [decimal_go]. destruct (Nat.ltb_spec n 10); [now apply digit_val|].
  rewrite place_app, IH by (pose proof (Nat.div_lt n 10 ltac:(lia) ltac:(lia)); lia). change (List.length [digit (n mod 10)]) with 1%nat. rewrite digit_val by (apply Nat.mod_upper_bound; lia).
  change (10 ^ 1)%nat with 10%nat. pose proof (Nat.div_mod n 10 ltac:(lia)). lia.
Qed.
Lemma decimal_place n : place (decimal n) = n.
Proof. apply decimal_go_place. lia. Qed.
Lemma decimal_all n : all_digits (decimal n) /\ decimal n <> [].
Proof.
  split; [|apply decimal_go_nonempty]. intros a A. apply digits_iff. pose proof (decimal_go_digits (S n) n) as F. rewrite Forall_forall in F. specialize (F a A). unfold is_digit.
  apply andb_true_intro. split; apply Nat.leb_le; apply F.
Qed.
Lemma decimal_numeral n : numeral (decimal n) (INR n).
Proof. rewrite <- (decimal_place n) at 2. destruct (decimal_all n). now constructor. Qed.
Lemma digits_len k : forall n, List.length (digits k n) = k.
Proof. induction k as [|k IH]; intros n; cbn [digits]; [reflexivity|]. rewrite app_length, IH. cbn. lia. Qed.
Lemma digits_all k : forall n, all_digits (digits k n).
Proof.
  induction k as [|k IH]; intros n a A; cbn [digits] in A; [contradiction|]. apply in_app_or in A. destruct A as [A|[<-|[]]]; [now apply (IH (n / 10)%nat)|]. apply digit_in, Nat.mod_upper_bound. lia.
Qed.
Lemma digits_place k : forall n, (n < 10 ^ k)%nat -> place (digits k n) = n.
Proof.
  induction k as [|k IH]; intros n N; cbn [digits]; [cbn in N |- *; lia|]. rewrite place_app. change (List.length [digit (n mod 10)]) with 1%nat. rewrite digit_val by (apply Nat.mod_upper_bound; lia).
  rewrite IH. - change (10 ^ 1)%nat with 10%nat. pose proof (Nat.div_mod n 10 ltac:(lia)). lia.
  - rewrite Nat.pow_succ_r' in N. apply Nat.div_lt_upper_bound; lia.
Qed.
Lemma pow10_pos n : (0 < 10 ^ n)%nat.
Proof. apply Nat.neq_0_lt_0, Nat.pow_nonzero. lia. Qed.
Lemma INR_pow10 n : INR (10 ^ n) = 10 ^ n.
Proof. rewrite pow_INR. f_equal. cbn. lra. Qed.
(** the printed seconds stand for their value *)
Lemma sec_numeral n su : (su < 100 * 10 ^ n)%nat -> numeral (sec_text n su) (INR su / 10 ^ n).
Proof.
  intros H. pose proof (pow10_pos n) as P. assert (Q : (su / 10 ^ n < 100)%nat) by (apply Nat.div_lt_upper_bound; lia).
  assert (D : digits 2 (su / 10 ^ n) <> []) by (intros E; apply (f_equal (@List.length ascii)) in E; rewrite digits_len in E; discriminate).
  assert (PL : place (digits 2 (su / 10 ^ n)) = (su / 10 ^ n)%nat) by (apply digits_place; exact Q).
  unfold sec_text. destruct n as [|n].
  - rewrite app_nil_r. replace (INR su / 10 ^ 0) with (INR (place (digits 2 (su / 10 ^ 0)))); [constructor; [exact D|apply digits_all]|].
    rewrite PL. change (10 ^ 0)%nat with 1%nat. rewrite Nat.div_1_r. cbn [pow]. field.
  - set (k := S n) in *. replace (INR su / 10 ^ k) with (INR (place (digits 2 (su / 10 ^ k))) + INR (place (digits k (su mod 10 ^ k))) / 10 ^ List.length (digits k (su mod 10 ^ k))).
    + apply (n_frac (digits 2 (su / 10 ^ k)) (digits k (su mod 10 ^ k))); [exact D|apply digits_all|apply digits_all].
    + rewrite PL, digits_len, digits_place by (apply Nat.mod_upper_bound; lia). rewrite (Nat.div_mod su (10 ^ k)) at 3 by lia. rewrite plus_INR, mult_INR, INR_pow10.
      field. apply pow_nonzero. lra.
Qed.
Lemma ten_nat n : ten n = Z.of_nat (10 ^ n).
Proof. unfold ten. rewrite Nat2Z.inj_pow. reflexivity. Qed.
Lemma INR_natz z : (0 <= z)%Z -> INR (natz z) = IZR z.
Proof. intros H. unfold natz. now rewrite INR_IZR_INZ, Z2Nat.id. Qed.

(** ** C92 *)
(** the value printed: fields of getDmsStr with n decimals *)
Definition dms_value (n : nat) (a : ang) : R :=
  let p := dmsStr n a in (if p_neg p then -1 else 1) * (IZR (p_whole p) + IZR (p_min p) / 60 + IZR (p_sec p) / 10 ^ n / 3600).
Lemma white_nil : white []. Proof. intros a []. Qed.
Lemma sign_text (neg sign : bool) : In (if neg then L "-" else if sign then L "+" else []) [[]; L "+"; L "-"].
Proof. destruct neg, sign; cbn; auto. Qed.
Lemma signed_text (neg sign : bool) v : signed (if neg then L "-" else if sign then L "+" else []) v = (if neg then -1 else 1) * v.
Proof. destruct neg; [|destruct sign]; unfold signed; cbn [str_eqb L list_ascii_of_string Ascii.eqb Bool.eqb andb]; ring. Qed.
Lemma sec_bound n z : (0 <= z < 60 * ten n)%Z -> (natz z < 100 * 10 ^ n)%nat.
Proof. rewrite ten_nat. unfold natz. intros H. apply Nat2Z.inj_lt. rewrite Z2Nat.id by lia. rewrite Nat2Z.inj_mul. change (Z.of_nat 100) with 100%Z. lia. Qed.
Lemma read_printed_dms n a sign y z g r : In y [L "'"; L "m"] -> In z [L "s"; [""""%char]; []] -> read_angle g r (print_dms n (L "d", y, z) sign a) = Ok (UDeg, dms_value n a).
Proof.
  intros Y Z. destruct (C20_dms_string n a) as (M & S & W & NG & _). unfold print_dms, dms_value. set (p := dmsStr n a) in *.
  set (sg := if p_neg p then L "-" else if sign then L "+" else []).
  replace (sg ++ decimal (natz (p_whole p)) ++ L "d" ++ decimal (natz (p_min p)) ++ y ++ sec_text n (natz (p_sec p)) ++ z)
    with ([] ++ (sg ++ decimal (natz (p_whole p)) ++ L "d" ++ decimal (natz (p_min p)) ++ y ++ sec_text n (natz (p_sec p)) ++ z) ++ []) by (cbn [app]; apply app_nil_r).
  rewrite (C91_three g r [] sg _ (INR (natz (p_whole p))) (L "d") UDeg _ (INR (natz (p_min p))) y _ (INR (natz (p_sec p)) / 10 ^ n) z []); try apply white_nil; try apply decimal_numeral.
  - unfold sg. rewrite signed_text, !INR_natz by lia. reflexivity.
  - apply sign_text.
  - apply sec_numeral, sec_bound. exact S.
  - cbn. tauto.
  - cbn. cbn in Y. tauto.
  - cbn. cbn in Z. tauto.
Qed.
Lemma read_printed_colons n a g r : read_angle g r (print_dms n (L ":", L ":", []) true a) = Ok (match g with Some true => UHours | _ => UDeg end, dms_value n a).
Proof.
  destruct (C20_dms_string n a) as (M & S & W & NG & _). unfold print_dms, dms_value. set (p := dmsStr n a) in *.
  set (sg := if p_neg p then L "-" else L "+"). rewrite (app_nil_r (sec_text n (natz (p_sec p)))).
  replace (sg ++ decimal (natz (p_whole p)) ++ L ":" ++ decimal (natz (p_min p)) ++ L ":" ++ sec_text n (natz (p_sec p)))
    with ([] ++ (sg ++ decimal (natz (p_whole p)) ++ L ":" ++ decimal (natz (p_min p)) ++ L ":" ++ sec_text n (natz (p_sec p))) ++ []) by (cbn [app]; apply app_nil_r).
  destruct (decimal_all (natz (p_min p))) as (DA & DN).
  rewrite (C91_colons g r [] sg _ (INR (natz (p_whole p))) _ _ (INR (natz (p_sec p)) / 10 ^ n) []); try apply white_nil; try apply decimal_numeral; auto.
  - rewrite decimal_place, !INR_natz by lia. f_equal. f_equal.
    + destruct g as [[]|]; [reflexivity|reflexivity|]. unfold sg. destruct (p_neg p); reflexivity.
    + unfold sg. rewrite (signed_text (p_neg p) true). reflexivity.
  - exact (sign_text (p_neg p) true).
  - apply sec_numeral, sec_bound. exact S.
Qed.
(** reading back: the angle is right to half a unit of the last printed digit *)
Definition half_unit (n : nat) : R := 1 / (2 * 3600 * 10 ^ n).
(** the printed text rounds correctly: not for negative angles that round up to a whole degree (C20_negative_carry_refuted) *)
Definition rounds (n : nat) (a : ang) : Prop := 0 <= decval a \/ Rabs (getDeg a) * 3600 * 10 ^ n < IZR (rfloor (Rabs (getDeg a)) + 1) * 3600 * 10 ^ n - 1 / 2.
Lemma IZR_ten n : IZR (ten n) = 10 ^ n.
Proof. rewrite ten_nat, <- INR_IZR_INZ. apply INR_pow10. Qed.
Lemma pow10_posR n : 0 < 10 ^ n. Proof. apply pow_lt. lra. Qed.
Lemma scaled_close x y t : 0 < t -> -(1/2) <= x * t - y * t <= 1/2 -> Rabs (x - y) <= 1 / (2 * t).
Proof.
  intros T H. assert (0 < / t) by now apply Rinv_0_lt_compat. replace (1 / (2 * t)) with (1 / 2 * / t) by (field; lra).
  replace (x - y) with ((x * t - y * t) * / t) by (field; lra). rewrite Rabs_mult, (Rabs_pos_eq (/ t)) by lra. apply Rmult_le_compat_r; [lra|]. apply Rabs_le. lra.
Qed.
Lemma dms_value_close n a : rounds n a -> Rabs (dms_value n a - getDeg a) <= half_unit n.
Proof.
  intros G. destruct (C20_dms_string n a) as (M & S & W & NG & H). unfold dms_value. set (p := dmsStr n a) in *. rewrite IZR_ten in H.
  specialize (H G). rewrite plus_IZR, mult_IZR, plus_IZR, !mult_IZR, IZR_ten in H. pose proof (pow10_posR n) as T.
  set (v := IZR (p_whole p) + IZR (p_min p) / 60 + IZR (p_sec p) / 10 ^ n / 3600).
  assert (C : Rabs (v - Rabs (getDeg a)) <= half_unit n).
  { unfold half_unit. rewrite Rmult_assoc. apply scaled_close; [lra|]. unfold v.
    replace ((IZR (p_whole p) + IZR (p_min p) / 60 + IZR (p_sec p) / 10 ^ n / 3600) * (3600 * 10 ^ n)) with ((IZR (p_whole p) * 3600 + IZR (p_min p) * 60) * 10 ^ n + IZR (p_sec p)) by (field; lra). lra. }
  destruct (p_neg p) eqn:Q.
  - assert (D : decval a < 0) by (now apply NG). apply getDeg_sign in D. rewrite (Rabs_left (getDeg a)) in C by lra. replace (-1 * v - getDeg a) with (- (v - - getDeg a)) by ring. now rewrite Rabs_Ropp.
  - assert (D : ~ getDeg a < 0). { intros D. apply getDeg_sign in D. apply NG in D. congruence. } rewrite (Rabs_pos_eq (getDeg a)) in C by lra. now rewrite Rmult_1_l.
Qed.
Lemma getDeg_of x r : getDeg (Ang (x * PI / 180) r) = x.
Proof. unfold getDeg. cbn [decval]. field. apply PI_neq0. Qed.
Lemma getHours_of x r : getHours (Ang (x * PI / 12) r) = x.
Proof. unfold getHours. cbn [decval]. field. apply PI_neq0. Qed.

(** Printing an angle in degrees with n decimals of a second (separators d m s or d and the two kinds of quotes, with or without sign) and making an angle from the
    text gives the angle to half a unit of the last digit, whatever [sghms] and [radians] are. *)
Theorem C92_dms : forall n a sep sign sghms radians, In sep [(L "d", L "'", [""""%char]); (L "d", L "m", L "s")] ->
  exists a', new_from_string sghms radians (print_dms n sep sign a) = Ok a' /\ range a' = None /\ (rounds n a -> Rabs (getDeg a' - getDeg a) <= half_unit n).
Proof.
  intros n a sep sign g r I'. assert (E : read_angle g r (print_dms n sep sign a) = Ok (UDeg, dms_value n a)).
  { destruct I' as [<-|[<-|[]]]; apply read_printed_dms; cbn; auto. }
  unfold new_from_string. rewrite E. eexists. split; [reflexivity|]. split; [reflexivity|]. intros G. cbn [setDeg setRad checkRange range fst]. rewrite getDeg_of. now apply dms_value_close.
Qed.
(** str() of an angle has two decimals *)
Theorem C92_str : forall a sghms radians, exists a', new_from_string sghms radians (str_angle a) = Ok a' /\ range a' = None /\ (rounds 2 a -> Rabs (getDeg a' - getDeg a) <= 1 / 720000).
Proof.
  intros a g r. destruct (C92_dms 2 a (L "d", L "'", [""""%char]) true g r) as (a' & E & R' & C); [cbn; auto|]. exists a'. split; [exact E|]. split; [exact R'|].
  intros G. specialize (C G). unfold half_unit in C. replace (2 * 3600 * 10 ^ 2) with 720000 in C by (cbn [pow]; ring). exact C.
Qed.
(** canonical text +dd:mm:ss.ss, unless it is to be read as hours *)
Theorem C92_canonical : forall a sghms radians, sghms <> Some true ->
  exists a', new_from_string sghms radians (canonical_dms a) = Ok a' /\ range a' = None /\ (rounds 2 a -> Rabs (getDeg a' - getDeg a) <= 1 / 720000).
Proof.
  intros a g r N. unfold new_from_string. unfold canonical_dms. rewrite read_printed_colons.
  assert (U : match g with Some true => UHours | _ => UDeg end = UDeg) by (destruct g as [[]|]; congruence). rewrite U.
  eexists. split; [reflexivity|]. split; [reflexivity|]. intros G. cbn [setDeg setRad checkRange range fst]. rewrite getDeg_of.
  pose proof (dms_value_close 2 a G) as C. unfold half_unit in C. replace (2 * 3600 * 10 ^ 2) with 720000 in C by (cbn [pow]; ring). exact C.
Qed.
Lemma print_dms_eq n n' sep sign a a' : dmsStr n a = dmsStr n' a' -> n = n' -> print_dms n sep sign a = print_dms n' sep sign a'.
Proof. intros E <-. unfold print_dms. now rewrite E. Qed.
Lemma rneR_int z : rneR (IZR z) = z.
Proof.
  unfold rneR. assert (E : rfloor (IZR z) = z).
  { pose proof (rfloor_spec (IZR z)) as (A & B). assert (X : IZR z < IZR (rfloor (IZR z) + 1)) by (rewrite plus_IZR; lra). apply le_IZR in A. apply lt_IZR in X. lia. }
  rewrite E. destruct (Rlt_dec (IZR z - IZR z) (1 / 2)); [reflexivity|lra].
Qed.
(** an angle made of whole printed fields prints as them *)
Lemma dmsStr_exact n (w m s : Z) (neg : bool) r : (0 <= w)%Z -> (0 <= m <= 59)%Z -> (0 <= s < 60 * ten n)%Z -> (neg = true -> (0 < w \/ 0 < m \/ 0 < s)%Z) ->
  dmsStr n (Ang (((if neg then -1 else 1) * (IZR w + IZR m / 60 + IZR s / 10 ^ n / 3600)) * PI / 180) r) = P neg w m s.
Proof.
  intros W M S NZ. pose proof (pow10_posR n) as T. set (v := IZR w + IZR m / 60 + IZR s / 10 ^ n / 3600).
  assert (I0 : 0 < / 10 ^ n) by now apply Rinv_0_lt_compat.
  assert (0 <= IZR w) by (apply IZR_le; lia). assert (0 <= IZR m) by (apply IZR_le; lia). assert (0 <= IZR s) by (apply IZR_le; lia).
  assert (0 <= IZR s / 10 ^ n) by (apply Rmult_le_pos; lra).
  assert (V : 0 <= v) by (unfold v; lra).
  assert (S60 : 0 <= IZR s / 10 ^ n < 60).
  { split; [assumption|]. assert (IZR s < 60 * 10 ^ n) by (rewrite <- IZR_ten, <- mult_IZR; apply IZR_lt; lia). apply Rmult_lt_reg_r with (10 ^ n); [exact T|]. unfold Rdiv. rewrite Rmult_assoc, Rinv_l by lra. lra. }
  assert (VP : neg = true -> 0 < v).
  { intros NG. specialize (NZ NG). unfold v. assert (IZR s / 10 ^ n / 3600 > 0 \/ IZR s / 10 ^ n / 3600 >= 0) by (right; lra). destruct NZ as [Q|[Q|Q]]; apply IZR_lt in Q; [lra|lra|].
    assert (0 < IZR s / 10 ^ n) by (apply Rmult_lt_0_compat; lra). lra. }
  unfold dmsStr. rewrite getDms_split, getDeg_of. 
  assert (AB : Rabs ((if neg then -1 else 1) * v) = v) by (destruct neg; [rewrite Rabs_left; [ring|specialize (VP eq_refl); lra]|rewrite Rmult_1_l; now apply Rabs_pos_eq]).
  rewrite AB, (split60_unique v w m (IZR s / 10 ^ n)); auto. 
  replace (IZR s / 10 ^ n * IZR (ten n)) with (IZR s) by (rewrite IZR_ten; field; lra). rewrite rneR_int.
  destruct (Z.leb_spec (60 * ten n) s); [lia|].
  assert (DV : decval (Ang ((if neg then -1 else 1) * v * PI / 180) r) < 0 <-> neg = true).
  { cbn [decval]. pose proof PI_RGT_0. destruct neg; split; intros; [reflexivity|specialize (VP eq_refl); nra| |discriminate]. exfalso. nra. }
  f_equal; [destruct (Rlt_dec (decval _) 0) as [D|D]; [symmetry; now apply DV|]; destruct neg; [|reflexivity]; exfalso; apply D, DV; reflexivity|].
  destruct (Rlt_dec _ 0); lia.
Qed.
(** Printing what was read from a printed angle gives the same text; for a negative angle, when it does not round to zero. *)
Theorem C92_reprint : forall n a sep sign sghms radians, In sep [(L "d", L "'", [""""%char]); (L "d", L "m", L "s")] ->
  0 <= decval a \/ rounds n a /\ half_unit n < Rabs (getDeg a) ->
  let t := print_dms n sep sign a in exists a', new_from_string sghms radians t = Ok a' /\ print_dms n sep sign a' = t.
Proof.
  intros n a sep sign g r I' G t. assert (E : read_angle g r (print_dms n sep sign a) = Ok (UDeg, dms_value n a)).
  { destruct I' as [<-|[<-|[]]]; apply read_printed_dms; cbn; auto. }
  unfold new_from_string, t. rewrite E. eexists. split; [reflexivity|]. cbn [setDeg setRad checkRange range fst]. apply print_dms_eq; [|reflexivity].
  destruct (C20_dms_string n a) as (M & S & W & NG & _). set (p := dmsStr n a) in *.
  assert (NZ : p_neg p = true -> (0 < p_whole p \/ 0 < p_min p \/ 0 < p_sec p)%Z).
  { intros Q. apply NG in Q. destruct G as [G|(G & B)]; [lra|]. apply dms_value_close in G. unfold dms_value in G. fold p in G.
    destruct (Z.eq_dec (p_whole p) 0) as [E1|]; [|lia]. destruct (Z.eq_dec (p_min p) 0) as [E2|]; [|lia]. destruct (Z.eq_dec (p_sec p) 0) as [E3|]; [|lia].
    exfalso. rewrite E1, E2, E3 in G. replace ((if p_neg p then -1 else 1) * (0 + 0 / 60 + 0 / 10 ^ n / 3600) - getDeg a) with (- getDeg a) in G; [rewrite Rabs_Ropp in G; lra|].
    pose proof (pow10_posR n). field. lra. }
  unfold dms_value. fold p. rewrite dmsStr_exact; auto. now destruct p.
Qed.
(** ** Hours *)
Definition hms_value (n : nat) (h m su : Z) : R := IZR h + IZR m / 60 + IZR su / 10 ^ n / 3600.
Lemma print_hms_pos n sep a h m su : 0 <= decval a -> hmsStr n a = (h, m, su) -> 
  print_hms n sep a = let '(x, y, z) := sep in decimal (natz h) ++ x ++ decimal (natz m) ++ y ++ sec_text n (natz su) ++ z.
Proof.
  intros D E. destruct (C20_hms_string n a h m su D E) as (M & S & H & _). unfold print_hms. rewrite E. destruct (getHms a) as ((h0 & m0) & s0) eqn:Q.
  destruct (C20_hms a h0 m0 s0 D Q) as (_ & _ & S0 & _). destruct (Rlt_dec s0 0); [lra|]. destruct sep as ((x & y) & z). unfold decimalz, sec_textz.
  destruct (Z.ltb_spec h 0); [lia|]. destruct (Z.ltb_spec m 0); [lia|]. reflexivity.
Qed.
Lemma read_printed_hms n a h m su g r : 0 <= decval a -> hmsStr n a = (h, m, su) ->
  read_angle g r (print_hms n (L "h", L "m", L "s") a) = Ok (UHours, hms_value n h m su) /\
  (g <> Some false -> read_angle g r (print_hms n (L ":", L ":", []) a) = Ok (UHours, hms_value n h m su)).
Proof.
  intros D E. destruct (C20_hms_string n a h m su D E) as (M & S & H & _). rewrite !(print_hms_pos _ _ _ _ _ _ D E). split.
  - set (t := decimal (natz h) ++ L "h" ++ decimal (natz m) ++ L "m" ++ sec_text n (natz su) ++ L "s"). replace t with ([] ++ ([] ++ t) ++ []) by (cbn [app]; apply app_nil_r). unfold t.
    rewrite (C91_three g r [] [] _ (INR (natz h)) (L "h") UHours _ (INR (natz m)) (L "m") _ (INR (natz su) / 10 ^ n) (L "s") []); try apply white_nil; try apply decimal_numeral; try (cbn; tauto).
    + rewrite !INR_natz by lia. reflexivity.
    + apply sec_numeral, sec_bound. exact S.
  - intros G. rewrite (app_nil_r (sec_text n (natz su))). set (t := decimal (natz h) ++ L ":" ++ decimal (natz m) ++ L ":" ++ sec_text n (natz su)). replace t with ([] ++ ([] ++ t) ++ []) by (cbn [app]; apply app_nil_r). unfold t.
    destruct (decimal_all (natz m)) as (DA & DN).
    rewrite (C91_colons g r [] [] _ (INR (natz h)) _ _ (INR (natz su) / 10 ^ n) []); try apply white_nil; try apply decimal_numeral; auto; try (cbn; tauto).
    + rewrite decimal_place, !INR_natz by lia. f_equal. f_equal. destruct g as [[]|]; [reflexivity|congruence|reflexivity].
    + apply sec_numeral, sec_bound. exact S.
Qed.
Lemma hms_value_close n a h m su : 0 <= decval a -> hmsStr n a = (h, m, su) -> exists k, (k = 0 \/ k = 24) /\ Rabs (hms_value n h m su + k - getHours a) <= half_unit n.
Proof.
  intros D E. destruct (C20_hms_string n a h m su D E) as (M & S & H & k & K & C). exists (IZR k). split; [destruct K; subst; auto|].
  rewrite plus_IZR, mult_IZR, plus_IZR, !mult_IZR, plus_IZR, IZR_ten in C. pose proof (pow10_posR n) as T. unfold half_unit. rewrite Rmult_assoc. apply scaled_close; [lra|]. unfold hms_value.
  replace ((IZR h + IZR m / 60 + IZR su / 10 ^ n / 3600 + IZR k) * (3600 * 10 ^ n)) with (((IZR h + IZR k) * 3600 + IZR m * 60) * 10 ^ n + IZR su) by (field; lra). lra.
Qed.
(** Printing a non-negative angle in hours and reading the text gives the angle to half a unit of the last digit of a second of time, up to 24 hours
    (an angle just below 24 hours prints as 0); the form with colons needs that [sghms] is not False. *)
Theorem C92_hms : forall n a sep sghms radians, 0 <= decval a -> sep = (L "h", L "m", L "s") \/ sep = (L ":", L ":", []) /\ sghms <> Some false ->
  exists a' k, new_from_string sghms radians (print_hms n sep a) = Ok a' /\ range a' = None /\ (k = 0 \/ k = 24) /\ Rabs (getHours a' + k - getHours a) <= half_unit n.
Proof.
  intros n a sep g r D SP. destruct (hmsStr n a) as ((h & m) & su) eqn:E. destruct (read_printed_hms n a h m su g r D E) as (R1 & R2).
  destruct (hms_value_close n a h m su D E) as (k & K & C).
  assert (RD : read_angle g r (print_hms n sep a) = Ok (UHours, hms_value n h m su)) by (destruct SP as [->|(-> & G)]; [exact R1|exact (R2 G)]).
  unfold new_from_string. rewrite RD. eexists. exists k. split; [reflexivity|]. split; [reflexivity|]. split; [exact K|]. cbn [setHours setRad checkRange range fst]. now rewrite getHours_of.
Qed.
(** ** What does not hold *)
Lemma dms_zero_text : print_dms 2 (L "d", L "'", [""""%char]) true (Ang (- (1/1000000) * PI / 180) None) = L "-0d0'00.00" ++ [""""%char].
Proof.
  unfold print_dms. assert (E : dmsStr 2 (Ang (- (1 / 1000000) * PI / 180) None) = P true 0 0 0).
  { unfold dmsStr. rewrite getDms_split, getDeg_of, Rabs_Ropp, Rabs_pos_eq by lra. rewrite (split60_unique _ 0 0 (36 / 10000)); [|lia|lia|lra|lra].
    assert (Q : rneR (36 / 10000 * IZR (ten 2)) = 0%Z).
    { rewrite IZR_ten. pose proof (rneR_spec (36 / 10000 * 10 ^ 2)) as (A & B). replace (36 / 10000 * 10 ^ 2) with (36 / 100) in * by (cbn [pow]; field). 
      assert (IZR (rneR (36 / 100)) < 1) by lra. assert (-1 < IZR (rneR (36 / 100))) by lra. apply lt_IZR in H, H0. lia. }
    rewrite Q. cbn [Z.leb]. replace (60 * ten 2 <=? 0)%Z with false by reflexivity. f_equal.
    - destruct (Rlt_dec _ 0) as [_|N]; [reflexivity|]. exfalso. apply N. cbn [decval]. pose proof PI_RGT_0. nra.
    - destruct (Rlt_dec _ 0); reflexivity. }
  rewrite E. reflexivity.
Qed.
(** a tiny negative angle: its text is read as zero, which prints differently *)
Theorem C92_negative_zero_refuted : exists a a', str_angle a = L "-0d0'00.00" ++ [""""%char] /\ new_from_string None false (str_angle a) = Ok a' /\ str_angle a' = L "+0d0'00.00" ++ [""""%char].
Proof.
  exists (Ang (- (1/1000000) * PI / 180) None), (Ang 0 None). unfold str_angle. rewrite dms_zero_text. split; [reflexivity|]. split.
  - unfold new_from_string. replace (read_angle None false _) with (@Ok (aunit * R) (UDeg, 0)); [|symmetry; cbv -[Rplus Rmult Ropp Rinv Rdiv Rminus IZR]; f_equal; f_equal; field].
    cbn [setDeg setRad checkRange range fst]. do 2 f_equal. field.
  - unfold print_dms. replace (Ang 0 None) with (Ang ((if false then -1 else 1) * (IZR 0 + IZR 0 / 60 + IZR 0 / 10 ^ 2 / 3600) * PI / 180) None) by (f_equal; field).
    rewrite (dmsStr_exact 2 0 0 0 false None); [reflexivity|lia|lia|split; [lia|reflexivity]|discriminate].
Qed.
(** the canonical text of an angle read with sghms=True is read as hours: 1 degree becomes 15 *)
Theorem C92_canonical_hours_refuted : exists a', new_from_string (Some true) false (canonical_dms (Ang (1 * PI / 180) None)) = Ok a' /\ getDeg a' = 15.
Proof.
  unfold canonical_dms, new_from_string. rewrite read_printed_colons. eexists. split; [reflexivity|]. unfold dms_value.
  replace (Ang (1 * PI / 180) None) with (Ang ((if false then -1 else 1) * (IZR 1 + IZR 0 / 60 + IZR 0 / 10 ^ 2 / 3600) * PI / 180) None) by (f_equal; field).
  rewrite (dmsStr_exact 2 1 0 0 false None); [|lia|lia|split; [lia|reflexivity]|discriminate]. cbn [p_neg p_whole p_min p_sec setHours setRad checkRange range fst].
  unfold getDeg. cbn [decval pow]. field. apply PI_neq0.
Qed.
(** a negative angle in hours: each field has its own sign, and the text cannot be read *)
Theorem C92_negative_hours_refuted : exists a, 0 > decval a /\ print_hms 2 (L "h", L "m", L "s") a = L "-12h-30m-5.00s" /\ new_from_string None false (print_hms 2 (L "h", L "m", L "s") a) = Raise ValueError.
Proof.
  exists (Ang (- (12 + 30 / 60 + 5 / 3600) * PI / 12) None). pose proof PI_RGT_0 as PP.
  assert (N : decval (Ang (- (12 + 30 / 60 + 5 / 3600) * PI / 12) None) < 0) by (cbn [decval]; nra).
  assert (G : getHms (Ang (- (12 + 30 / 60 + 5 / 3600) * PI / 12) None) = ((-12)%Z, (-30)%Z, - (5))).
  { apply (getHms_neg _ 12 30 5); [lra|]. apply split60_unique; [lia|lia|lra|]. unfold getDeg. cbn [decval]. field. lra. }
  assert (T : print_hms 2 (L "h", L "m", L "s") (Ang (- (12 + 30 / 60 + 5 / 3600) * PI / 12) None) = L "-12h-30m-5.00s").
  { unfold print_hms, hmsStr. rewrite G. replace (- (5) * IZR (ten 2)) with (IZR (-500)) by (replace (ten 2) with 100%Z by reflexivity; lra). rewrite rneR_int.
    replace (60 * ten 2 <=? -500)%Z with false by reflexivity. destruct (Rlt_dec (- (5)) 0); [reflexivity|lra]. }
  split; [lra|]. split; [exact T|]. rewrite T. reflexivity.
Qed.
(** getDmsStr without arguments separates by a degree sign, which is not read *)
Definition okc (a : ascii) : bool := nd a || is_sign a || existsb (Ascii.eqb a) (L "hoursdegani :m'" ++ [""""%char]).
Lemma okc_num n v : numeral n v -> forallb okc n = true.
Proof. intros N. destruct (numeral_chars _ _ N) as (C & _). rewrite forallb_forall in C |- *. intros a A. unfold okc. now rewrite (C a A). Qed.
Lemma fields_okc s f m x : fields s f m x -> forallb okc s = true.
Proof.
  intros (a & b & c & -> & A & B & C). rewrite !forallb_app. apply andb_true_intro. split; [|apply andb_true_intro; split].
  - destruct f as [((sg & v) & mk)|]; cbn [first_part] in A; [|now subst]. destruct A as (SG & (n & N & ->) & MK). rewrite !forallb_app, (okc_num _ _ N).
    assert (forallb okc sg = true) as -> by (cbn [In] in SG; destruct SG as [<-|[<-|[<-|[]]]]; reflexivity).
    destruct MK as [MK|(-> & _)]; [|reflexivity]. unfold words in MK. cbn [map In] in MK. repeat (destruct MK as [<-|MK]; [reflexivity|]). contradiction.
  - destruct B as [|n v mk N MK]; [reflexivity|]. rewrite forallb_app, (okc_num _ _ N). unfold minute_marks in MK. cbn [map In] in MK. repeat (destruct MK as [<-|MK]; [reflexivity|]). contradiction.
  - destruct C as [|n v mk N MK]; [reflexivity|]. rewrite forallb_app, (okc_num _ _ N). unfold second_marks in MK. cbn [map In] in MK. repeat (destruct MK as [<-|MK]; [reflexivity|]). contradiction.
Qed.
Theorem C92_degree_sign_refuted : forall n a sign sghms radians, new_from_string sghms radians (print_dms n ([ascii_of_nat 176], L "'", [""""%char]) sign a) = Raise ValueError.
Proof.
  intros n a sign g r. set (dg := ascii_of_nat 176). set (t := print_dms n ([dg], L "'", [""""%char]) sign a).
  assert (T : exists p q sg, t = sg ++ decimal p ++ dg :: q ++ [""""%char] /\ In sg [[]; L "+"; L "-"]).
  { unfold t, print_dms. set (pp := dmsStr n a). exists (natz (p_whole pp)), (decimal (natz (p_min pp)) ++ L "'" ++ sec_text n (natz (p_sec pp))), (if p_neg pp then L "-" else if sign then L "+" else []).
    split; [cbn [app]; rewrite <- !app_assoc; reflexivity|apply sign_text]. }
  destruct T as (p & q & sg & T & SG).
  assert (ST : strip t = t).
  { rewrite <- (app_nil_r t) at 1. change (t ++ []) with ([] ++ t ++ []). apply strip_solid; try apply white_nil. rewrite T. apply solid_general.
    - destruct (decimal_all p) as (_ & N). destruct (decimal p); [congruence|]. destruct sg; discriminate.
    - intros x y. apply (text_start sg (decimal p) (INR p) _ SG (decimal_numeral p)).
    - intros x y E. assert (E' : (sg ++ decimal p ++ dg :: q) ++ [""""%char] = x ++ [y]) by (rewrite <- E, <- !app_assoc; reflexivity). apply app_inj_tail in E'. destruct E' as (_ & <-). reflexivity. }
  assert (NO : forallb okc t = false).
  { rewrite T. rewrite !forallb_app. cbn [forallb]. replace (okc dg) with false by reflexivity. cbn [andb]. now rewrite !andb_false_r. }
  unfold new_from_string. rewrite C91_rejected; [reflexivity| |]; rewrite ST.
  - intros y B. rewrite T in B. revert B. rewrite app_assoc. apply not_bare; reflexivity.
  - intros f m x F. apply fields_okc in F. congruence.
Qed.
(** an angle of 2 degrees, 30 minutes: hypotheses *)
Example C92_ex : rounds 2 (Ang (rad (5 / 2)) None) /\ str_angle (Ang (5 / 2 * PI / 180) None) = L "+2d30'00.00" ++ [""""%char].
Proof.
  split; [left; cbn; apply rad_nonneg; lra|]. unfold str_angle, print_dms.
  replace (Ang (5 / 2 * PI / 180) None) with (Ang ((if false then -1 else 1) * (IZR 2 + IZR 30 / 60 + IZR 0 / 10 ^ 2 / 3600) * PI / 180) None) by (f_equal; field).
  rewrite (dmsStr_exact 2 2 30 0 false None); [reflexivity|lia|lia|split; [lia|reflexivity]|discriminate].
Qed.
