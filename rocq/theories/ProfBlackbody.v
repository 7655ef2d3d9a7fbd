(** * ProfBlackbody: BlackbodyModel (C61) *)
From Coq Require Import List Bool Reals Lra Lia Psatz.
From Coquelicot Require Import Coquelicot.
From Verif Require Import PyBase SpecModel ProfModel.
Open Scope R_scope.

Ltac pos := repeat first [ lra | apply pow_lt | apply Rinv_0_lt_compat | apply Rdiv_lt_0_compat | apply Rmult_lt_0_compat ].
Lemma exp_gt_1 y : 0 < y -> 1 < exp y.
Proof. intros. rewrite <- exp_0. now apply exp_increasing. Qed.
Lemma scale_pos e u : 0 < e -> 0 < scale e u.
Proof. intros; destruct u; simpl; try lra; try (apply Rinv_0_lt_compat; lra). Qed.

(** ** strict monotonicity from the derivative *)
Lemma incr_by_derivative f df a b : a < b -> (forall y, a <= y <= b -> is_derive f y (df y)) -> (forall y, a < y < b -> 0 < df y) -> f a < f b.
Proof.
  intros L D P. destruct (MVT_cor2 f df a b L) as (m & E & B). { intros; apply is_derive_Reals; now apply D. }
  specialize (P m B). assert (0 < df m * (b - a)) by (apply Rmult_lt_0_compat; lra). lra.
Qed.
Lemma decr_by_derivative f df a b : a < b -> (forall y, a <= y <= b -> is_derive f y (df y)) -> (forall y, a < y < b -> df y < 0) -> f b < f a.
Proof.
  intros L D P. destruct (MVT_cor2 f df a b L) as (m & E & B). { intros; apply is_derive_Reals; now apply D. }
  specialize (P m B). assert (0 < - df m * (b - a)) by (apply Rmult_lt_0_compat; lra). lra.
Qed.

(** ** the sign of n(1 - e^-y) - y *)
Definition g (n y : R) : R := n * (1 - exp (- y)) - y.
Lemma g_derive n y : is_derive (g n) y (n * exp (- y) - 1).
Proof. unfold g. auto_derive; trivial. ring. Qed.
Lemma g_0 n : g n 0 = 0.
Proof. unfold g. replace (- 0) with 0 by lra. rewrite exp_0. lra. Qed.
Lemma g_pos n y0 y : 1 < n -> 0 < g n y0 -> 0 < y <= y0 -> 0 < g n y.
Proof.
  intros N G0 Y. destruct (Rle_lt_dec (n * exp (- y)) 1) as [L|L].
  - destruct (Rle_lt_or_eq_dec y y0 (proj2 Y)) as [S0|E]; [|now rewrite E].
    apply Rlt_trans with (1 := G0). apply decr_by_derivative with (df := fun t => n * exp (- t) - 1); [exact S0|intros; apply g_derive|].
    intros t T. assert (exp (- t) < exp (- y)) by (apply exp_increasing; lra). nra.
  - rewrite <- (g_0 n). apply incr_by_derivative with (df := fun t => n * exp (- t) - 1); [lra|intros; apply g_derive|].
    intros t T. assert (exp (- y) < exp (- t)) by (apply exp_increasing; lra). nra.
Qed.
Lemma g_neg n y0 y : 1 < n -> 0 < y0 -> g n y0 < 0 -> y0 <= y -> g n y < 0.
Proof.
  intros N P G0 Y. destruct (Rle_lt_dec 0 (g n y)) as [L|L]; [|exact L]. exfalso.
  destruct (Rle_lt_or_eq_dec _ _ L) as [L'|E].
  - apply (Rlt_not_le _ _ G0). left. apply (g_pos n y); lra.
  - (* g y = 0 and g y0 < 0: between them the derivative is positive somewhere, hence everywhere before *)
    destruct (Rle_lt_dec (n * exp (- y0)) 1) as [M|M].
    + assert (y0 < y) by (destruct Y as [|Y]; [lra|subst; lra]).
      assert (g n y < g n y0); [|lra]. apply decr_by_derivative with (df := fun t => n * exp (- t) - 1); [lra|intros; apply g_derive|].
      intros t T. assert (exp (- t) < exp (- y0)) by (apply exp_increasing; lra). nra.
    + assert (g n 0 < g n y0); [|rewrite g_0 in *; lra]. apply incr_by_derivative with (df := fun t => n * exp (- t) - 1); [lra|intros; apply g_derive|].
      intros t T. assert (exp (- y0) < exp (- t)) by (apply exp_increasing; lra). nra.
Qed.

(** ** y^(k+1)/(e^y - 1) *)
Definition pl (k : nat) (y : R) : R := y ^ S k / (exp y - 1).
Definition pl' (k : nat) (y : R) : R := y ^ k * exp y * g (INR (S k)) y / (exp y - 1) ^ 2.
Lemma pl_derive k y : 0 < y -> is_derive (pl k) y (pl' k y).
Proof.
  intros P. pose proof (exp_gt_1 y P). unfold pl, pl', g. auto_derive. { lra. }
  rewrite exp_Ropp. assert (0 < exp y) by apply exp_pos. change (Init.Nat.pred (S k)) with k.
  change (y ^ S k) with (y * y ^ k). change (match k with 0%nat => 1 | S _ => INR k + 1 end) with (INR (S k)). generalize (INR (S k)); intros n. generalize dependent (y ^ k); intros p. field. lra.
Qed.
Lemma pl_increasing k y0 a b : (1 <= k)%nat -> 0 < g (INR (S k)) y0 -> 0 < a -> a < b -> b <= y0 -> pl k a < pl k b.
Proof.
  intros K G0 A L B. apply incr_by_derivative with (df := pl' k); [exact L|intros; apply pl_derive; lra|].
  intros t T. assert (1 < INR (S k)). { apply (lt_INR 1); lia. }
  pose proof (g_pos _ y0 t H G0 ltac:(lra)). pose proof (exp_gt_1 t ltac:(lra)). unfold pl'.
  apply Rdiv_lt_0_compat. { repeat apply Rmult_lt_0_compat; trivial. apply pow_lt; lra. apply exp_pos. } apply pow_lt; lra.
Qed.
Lemma pl_decreasing k y0 a b : (1 <= k)%nat -> 0 < y0 -> g (INR (S k)) y0 < 0 -> y0 <= a -> a < b -> pl k b < pl k a.
Proof.
  intros K P G0 A L. apply decr_by_derivative with (df := pl' k); [exact L|intros; apply pl_derive; lra|].
  intros t T. assert (1 < INR (S k)). { apply (lt_INR 1); lia. }
  pose proof (g_neg _ y0 t H P G0 ltac:(lra)). pose proof (exp_gt_1 t ltac:(lra)). unfold pl'.
  assert (0 < t ^ k * exp t * - g (INR (S k)) t / (exp t - 1) ^ 2); [|unfold Rdiv in *; lra].
  apply Rdiv_lt_0_compat. { repeat apply Rmult_lt_0_compat; [apply pow_lt; lra|apply exp_pos|lra]. } apply pow_lt; lra.
Qed.

(** ** bounds of the exponential *)
Lemma derive_n_exp n x : Derive_n exp n x = exp x.
Proof. revert x. induction n as [|n IH]; intros x; simpl; trivial. rewrite (Derive_ext _ exp); [|intros; apply IH]. apply is_derive_unique. apply is_derive_exp. Qed.
Lemma ex_derive_n_exp n x : ex_derive_n exp n x.
Proof. destruct n; simpl; trivial. apply (ex_derive_ext exp); [intros; now rewrite derive_n_exp|]. exists (exp x). apply is_derive_exp. Qed.
Definition tay (t : R) : R := 1 + t * (1 + t / 2 * (1 + t / 3 * (1 + t / 4 * (1 + t / 5 * (1 + t / 6))))).
Lemma exp_taylor t : 0 < t -> exists z, 0 < z < t /\ exp t = tay t + t ^ 7 / 5040 * exp z.
Proof.
  intros P. destruct (Taylor_Lagrange exp 6 0 t P) as (z & B & E). { intros; apply ex_derive_n_exp. }
  exists z; split; trivial. rewrite E. rewrite derive_n_exp. replace (t - 0) with t by lra.
  rewrite (sum_eq _ (fun m => t ^ m / INR (fact m))). 2:{ intros i _. rewrite derive_n_exp, exp_0. lra. }
  unfold tay. cbn [sum_f_R0]. rewrite !INR_IZR_INZ. cbv [fact Nat.mul Nat.add Z.of_nat Pos.of_succ_nat Pos.succ]. field.
Qed.
Lemma exp_lower t : 0 < t -> tay t < exp t.
Proof. intros P. destruct (exp_taylor t P) as (z & B & E). rewrite E. assert (0 < t ^ 7 / 5040 * exp z); [|lra]. apply Rmult_lt_0_compat; [apply Rdiv_lt_0_compat; [now apply pow_lt|lra]|apply exp_pos]. Qed.
Lemma exp_upper t : 0 < t <= 1 -> exp t < tay t + t ^ 7 / 1680.
Proof.
  intros P. destruct (exp_taylor t ltac:(lra)) as (z & B & E). rewrite E.
  assert (exp z < 3). { apply Rlt_le_trans with (exp 1); [apply exp_increasing; lra|apply exp_le_3]. }
  assert (0 < t ^ 7) by (apply pow_lt; lra). nra.
Qed.
Lemma exp_8 y : exp y = exp (y / 8) ^ 8.
Proof. rewrite <- (Rpower_pow 8 (exp (y/8))) by apply exp_pos. unfold Rpower. rewrite ln_exp. f_equal. rewrite INR_IZR_INZ. simpl. field. Qed.
Lemma exp_lower8 y : 0 < y -> tay (y / 8) ^ 8 < exp y.
Proof.
  intros. rewrite (exp_8 y). pose proof (exp_lower (y / 8) ltac:(lra)). assert (0 < tay (y / 8)). { unfold tay. assert (0 < y / 8) by lra. set (t := y / 8) in *. clearbody t. nra. }
  set (a := tay (y / 8)) in *. set (b := exp (y / 8)) in *. clearbody a b. assert (K : forall n, (1 <= n)%nat -> a ^ n < b ^ n); [|apply K; lia].
  intros n N. induction n as [|[|n] IH]; [lia|simpl; lra|]. specialize (IH ltac:(lia)). change (a * a ^ S n < b * b ^ S n). assert (0 < a ^ S n) by (now apply pow_lt). nra.
Qed.
Lemma exp_upper8 y : 0 < y <= 8 -> exp y < (tay (y / 8) + (y / 8) ^ 7 / 1680) ^ 8.
Proof.
  intros. rewrite (exp_8 y). pose proof (exp_upper (y / 8) ltac:(lra)). pose proof (exp_pos (y / 8)).
  set (a := exp (y / 8)) in *. set (b := _ + _) in *. clearbody a b. assert (K : forall n, (1 <= n)%nat -> a ^ n < b ^ n); [|apply K; lia].
  intros n N. induction n as [|[|n] IH]; [lia|simpl; lra|]. specialize (IH ltac:(lia)). change (a * a ^ S n < b * b ^ S n). assert (0 < a ^ S n) by (now apply pow_lt). nra.
Qed.
Lemma g3_low : 0 < g 3 2.8213.
Proof. unfold g. rewrite exp_Ropp. assert (L : 16.79 < exp 2.8213). { apply Rle_lt_trans with (2 := exp_lower8 2.8213 ltac:(lra)). unfold tay. lra. }
  assert (/ exp 2.8213 < / 16.79); [|lra]. apply Rinv_lt_contravar; nra. Qed.
Lemma g3_high : g 3 2.8216 < 0.
Proof. unfold g. rewrite exp_Ropp. assert (L : exp 2.8216 < 16.809). { apply Rlt_le_trans with (1 := exp_upper8 2.8216 ltac:(lra)). unfold tay. lra. }
  assert (/ 16.809 < / exp 2.8216); [|lra]. pose proof (exp_pos 2.8216). apply Rinv_lt_contravar; nra. Qed.
Lemma g5_low : 0 < g 5 4.9649.
Proof. unfold g. rewrite exp_Ropp. assert (L : 143 < exp 4.9649). { apply Rle_lt_trans with (2 := exp_lower8 4.9649 ltac:(lra)). unfold tay. lra. }
  assert (/ exp 4.9649 < / 143); [|lra]. apply Rinv_lt_contravar; nra. Qed.
Lemma g5_high : g 5 4.9653 < 0.
Proof. unfold g. rewrite exp_Ropp. assert (L : exp 4.9653 < 143.5). { apply Rlt_le_trans with (1 := exp_upper8 4.9653 ltac:(lra)). unfold tay. lra. }
  assert (/ 143.5 < / exp 4.9653); [|lra]. pose proof (exp_pos 4.9653). apply Rinv_lt_contravar; nra. Qed.

(** ** in terms of y = h nu / k T *)
Lemma fnu_pl c h kb A T x : 0 < c -> 0 < h -> 0 < kb -> 0 < T -> fnu c h kb A T x = A * 2 * (kb * T) ^ 3 / (h ^ 2 * c ^ 2) * pl 2 (h * x / (kb * T)).
Proof.
  intros. assert (0 < kb * T) by nra. unfold fnu, pl, Rdiv. set (i := / (exp _ - 1)). clearbody i. field. nra.
Qed.
Lemma flambda_pl c h kb A T x : 0 < c -> 0 < h -> 0 < kb -> 0 < T -> 0 < x -> flambda c h kb A T x = A * 2 * (kb * T) ^ 5 / (h ^ 4 * c ^ 3) * pl 4 (h * c / (kb * T * x)).
Proof.
  intros. assert (0 < kb * T) by nra. unfold flambda, pl, Rdiv. set (i := / (exp _ - 1)). clearbody i. field. nra.
Qed.

(** ** the constants of the code base (constants.py 131-139) *)
Definition c_cgs : R := 2.99792458 * 10 ^ 10.
Definition h_cgs : R := 6.626068 * / 10 ^ 27.
Definition kb_cgs : R := 1.3807 * / 10 ^ 16.
Definition ev_cgs : R := 1.60217646 * / 10 ^ 12.
Lemma c_cgs_pos : 0 < c_cgs. Proof. unfold c_cgs. nra. Qed.
Lemma h_cgs_pos : 0 < h_cgs. Proof. unfold h_cgs. apply Rmult_lt_0_compat; [lra|]. apply Rinv_0_lt_compat, pow_lt; lra. Qed.
Lemma kb_cgs_pos : 0 < kb_cgs. Proof. unfold kb_cgs. apply Rmult_lt_0_compat; [lra|]. apply Rinv_0_lt_compat, pow_lt; lra. Qed.
Lemma ev_cgs_pos : 0 < ev_cgs. Proof. unfold ev_cgs. apply Rmult_lt_0_compat; [lra|]. apply Rinv_0_lt_compat, pow_lt; lra. Qed.

(** C61, units: whatever (wavelength or frequency) unit the model is in, it describes the same radiation: converting a point of its graph with the unit conversion of spectra gives a point of the graph of the model in the other unit *)
Theorem C61_units : forall c h kb e u v A T x, 0 < c -> 0 < h -> 0 < kb -> 0 < e -> 0 < T -> 0 < x -> ptype u <> En -> ptype v <> En ->
  xftrans c h e u v (x, blackbody c h kb e u A T x) = (xtrans c h e u v x, blackbody c h kb e v A T (xtrans c h e u v x)).
Proof.
  intros c h kb e u v A T x Pc Ph Pk Pe PT Px U V. pose proof (scale_pos e u Pe) as Su. pose proof (scale_pos e v Pe) as Sv.
  unfold xftrans, xtrans, blackbody. cbn [fst snd].
  set (su := scale e u) in *. set (sv := scale e v) in *. clearbody su sv. assert (0 < x * su) by nra. set (y := x * su) in *. clearbody y. assert (W : forall w, w * su / su = w) by (intros; field; lra). rewrite W.
  destruct (ptype u), (ptype v); try congruence; cbn [conv fst snd].
  - f_equal. f_equal. f_equal. field; lra.
  - f_equal. replace (c / y / sv * sv) with (c / y) by (field; lra). unfold flambda, fnu. f_equal.
    replace (h * (c / y) / (kb * T)) with (h * c / (kb * T * y)) by (field; repeat split; nra).
    unfold Rdiv. set (i := / (exp _ - 1)). clearbody i. field; lra.
  - f_equal. replace (c / y / sv * sv) with (c / y) by (field; lra). unfold flambda, fnu. f_equal.
    replace (h * c / (kb * T * (c / y))) with (h * y / (kb * T)) by (field; repeat split; nra).
    unfold Rdiv. set (i := / (exp _ - 1)). clearbody i. field; lra.
  - f_equal. f_equal. f_equal. field; lra.
Qed.
(** ... which fails for energies: the energy is used as if it were a frequency *)
Theorem C61_energy_refuted : exists c h kb e A T x, 0 < c /\ 0 < h /\ 0 < kb /\ 0 < e /\ 0 < T /\ 0 < x /\
  xftrans c h e UHz UErg (x, blackbody c h kb e UHz A T x) <> (xtrans c h e UHz UErg x, blackbody c h kb e UErg A T (xtrans c h e UHz UErg x)).
Proof.
  exists 1, (/ 2), 1, 1, 1, 1, 4. repeat split; try lra. unfold xftrans, xtrans, blackbody, fen, fnu. cbn [ptype fst snd conv scale]. intros E. apply (f_equal snd) in E. cbn [snd] in E.
  replace (/ 2 * (4 * 1) / (1 * 1)) with 2 in E by lra. replace (/ 2 * (/ 2 * (4 * 1) / 1 * 1) / (1 * 1)) with 1 in E by lra.
  pose proof (exp_gt_1 1 ltac:(lra)). assert (X : exp 2 = exp 1 * exp 1). { rewrite <- exp_plus. f_equal; lra. } rewrite X in E. assert (exp 1 < 3 \/ exp 1 = 3) as Y by (pose proof exp_le_3; lra). set (q := exp 1) in *. clearbody q.
  assert (A1 : q * q - 1 <> 0) by nra. assert (A2 : q - 1 <> 0) by nra.
  apply (f_equal (fun t => t * (q - 1) * (q * q - 1))) in E.
  cbv beta in E. match type of E with ?l = ?r => replace l with (128 * (q - 1)) in E by (field; auto); replace r with (16 * (q * q - 1)) in E by (field; auto) end.
  nra.
Qed.

(** C61, displacement law: the intensity rises before the wavelength (frequency) that wienDisplacementLaw(None) returns and falls after it, but for one part in ten thousand on either side *)
Theorem C61_wien : forall u A T x1 x2, ptype u <> En -> 0 < A -> 0 < T -> 0 < x1 < x2 ->
  let f := blackbody c_cgs h_cgs kb_cgs ev_cgs u A T in let p := wien_peak h_cgs kb_cgs ev_cgs u T in
  (x2 <= (1 - / 10000) * p -> f x1 < f x2) /\ ((1 + / 10000) * p <= x1 -> f x2 < f x1).
Proof.
  intros u A T x1 x2 U PA PT X f p. subst f p. pose proof c_cgs_pos. pose proof h_cgs_pos. pose proof kb_cgs_pos. pose proof (scale_pos ev_cgs u ev_cgs_pos) as Su.
  assert (0 < kb_cgs * T) by nra.
  unfold blackbody, wien_peak. set (s := scale ev_cgs u) in *. clearbody s. assert (x1 * s < x2 * s) by nra. assert (0 < x1 * s) by nra. 
  destruct (ptype u); [| |congruence].
  - assert (Q : h_cgs * c_cgs / kb_cgs > 4.96493 * 0.28977685 /\ h_cgs * c_cgs / kb_cgs < 4.96494 * 0.28977685). { assert (Q : h_cgs * c_cgs / kb_cgs = 6.626068 * 2.99792458 / 13.807); [|rewrite Q; lra]. unfold h_cgs, c_cgs, kb_cgs. lra. }
    set (q := h_cgs * c_cgs / kb_cgs) in *. assert (Y : forall y, 0 < y -> h_cgs * c_cgs / (kb_cgs * T * y) = q / T / y). { intros. unfold q. field. repeat split; nra. }
    split; intros B; (apply Rmult_lt_compat_r; [lra|]); rewrite !flambda_pl by lra; rewrite !Y by lra; (apply Rmult_lt_compat_l; [pos|]).
    + apply (pl_decreasing 4 4.9653); [lia|lra|simpl INR; replace (1 + 1 + 1 + 1 + 1) with 5 by lra; apply g5_high| |].
      * assert (x2 * s <= (1 - / 10000) * 0.28977685 / T). { apply (Rmult_le_compat_r s) in B; [|lra]. replace ((1 - / 10000) * (0.28977685 / T / s) * s) with ((1 - / 10000) * 0.28977685 / T) in B by (field; lra). exact B. }
        apply Rmult_le_reg_r with (x2 * s); [lra|]. replace (q / T / (x2 * s) * (x2 * s)) with (q / T) by (field; nra). apply Rle_trans with (4.9653 * ((1 - / 10000) * 0.28977685 / T)); [nra|].
        unfold Rdiv. rewrite <- Rmult_assoc. apply Rmult_le_compat_r; [left; now apply Rinv_0_lt_compat|lra].
      * unfold Rdiv. apply Rmult_lt_compat_l; [|apply Rinv_lt_contravar; nra]. apply Rmult_lt_0_compat; [lra|now apply Rinv_0_lt_compat].
    + apply (pl_increasing 4 4.9649); [lia|simpl INR; replace (1 + 1 + 1 + 1 + 1) with 5 by lra; apply g5_low| | |].
      * apply Rdiv_lt_0_compat; [|lra]. apply Rdiv_lt_0_compat; lra.
      * unfold Rdiv. apply Rmult_lt_compat_l; [|apply Rinv_lt_contravar; nra]. apply Rmult_lt_0_compat; [lra|now apply Rinv_0_lt_compat].
      * assert ((1 + / 10000) * 0.28977685 / T <= x1 * s). { apply (Rmult_le_compat_r s) in B; [|lra]. replace ((1 + / 10000) * (0.28977685 / T / s) * s) with ((1 + / 10000) * 0.28977685 / T) in B by (field; lra). exact B. }
        apply Rmult_le_reg_r with (x1 * s); [lra|]. replace (q / T / (x1 * s) * (x1 * s)) with (q / T) by (field; nra). apply Rle_trans with (4.9649 * ((1 + / 10000) * 0.28977685 / T)); [|nra].
        unfold Rdiv. rewrite <- Rmult_assoc. apply Rmult_le_compat_r; [left; now apply Rinv_0_lt_compat|lra].
  - set (w := h_cgs / (kb_cgs * T)). assert (0 < w) by (apply Rdiv_lt_0_compat; lra). assert (Y : forall y, h_cgs * y / (kb_cgs * T) = w * y). { intros. unfold w. field. lra. }
    assert (P : 2.821439 * kb_cgs * T / h_cgs / s = 2.821439 / w / s). { unfold w. field. repeat split; nra. } rewrite P.
    split; intros B; (apply Rmult_lt_compat_r; [lra|]); rewrite !fnu_pl by lra; rewrite !Y by lra; (apply Rmult_lt_compat_l; [pos|]).
    + apply (pl_increasing 2 2.8213); [lia|simpl INR; replace (1 + 1 + 1) with 3 by lra; apply g3_low|nra|nra|].
      apply (Rmult_le_compat_r (s * w)) in B; [|nra]. replace ((1 - / 10000) * (2.821439 / w / s) * (s * w)) with ((1 - / 10000) * 2.821439) in B by (field; lra). nra.
    + apply (pl_decreasing 2 2.8216); [lia|lra|simpl INR; replace (1 + 1 + 1) with 3 by lra; apply g3_high| |nra].
      apply (Rmult_le_compat_r (s * w)) in B; [|nra]. replace ((1 + / 10000) * (2.821439 / w / s) * (s * w)) with ((1 + / 10000) * 2.821439) in B by (field; lra). nra.
Qed.

(** C61, hotter is brighter, at every wavelength and frequency; and the Rayleigh-Jeans law is an upper bound, Wien's approximation a lower one *)
Theorem C61_hotter : forall c h kb e u A T1 T2 x, 0 < c -> 0 < h -> 0 < kb -> 0 < e -> 0 < A -> 0 < T1 < T2 -> 0 < x ->
  0 < blackbody c h kb e u A T1 x < blackbody c h kb e u A T2 x.
Proof.
  intros c h kb e u A T1 T2 x Pc Ph Pk Pe PA T Px. pose proof (scale_pos e u Pe) as Su. unfold blackbody. set (s := scale e u) in *. clearbody s.
  assert (0 < x * s) by nra. set (y := x * s) in *. clearbody y. 
  assert (N : 0 < fnu c h kb A T1 y < fnu c h kb A T2 y).
  { assert (E : h * y / (kb * T2) < h * y / (kb * T1)). { unfold Rdiv. apply Rmult_lt_compat_l; [nra|]. apply Rinv_lt_contravar; [apply Rmult_lt_0_compat; nra|nra]. }
    assert (0 < h * y / (kb * T2)) by (apply Rdiv_lt_0_compat; nra). pose proof (exp_gt_1 _ H0). pose proof (exp_increasing _ _ E).
    assert (0 < A * 2 * h / c / c * y ^ 3). { pos. }
    unfold fnu. split. { apply Rdiv_lt_0_compat; lra. } unfold Rdiv at 1 5. apply Rmult_lt_compat_l; [lra|]. apply Rinv_lt_contravar; [apply Rmult_lt_0_compat; lra|lra]. }
  assert (L : 0 < flambda c h kb A T1 y < flambda c h kb A T2 y).
  { assert (E : h * c / (kb * T2 * y) < h * c / (kb * T1 * y)). { unfold Rdiv. apply Rmult_lt_compat_l; [nra|]. apply Rinv_lt_contravar; [repeat apply Rmult_lt_0_compat; lra|]. apply Rmult_lt_compat_r; nra. }
    assert (0 < h * c / (kb * T2 * y)) by (apply Rdiv_lt_0_compat; repeat apply Rmult_lt_0_compat; lra). pose proof (exp_gt_1 _ H0). pose proof (exp_increasing _ _ E).
    assert (0 < A * 2 * h * c * c * / y ^ 5). { pos. }
    unfold flambda. split. { apply Rdiv_lt_0_compat; lra. } unfold Rdiv at 1 3. apply Rmult_lt_compat_l; [lra|]. apply Rinv_lt_contravar; [apply Rmult_lt_0_compat; lra|lra]. }
  destruct (ptype u). { nra. } { nra. }
  unfold fen. assert (0 < fnu c h kb A T1 y / h < fnu c h kb A T2 y / h); [|nra]. split. { apply Rdiv_lt_0_compat; lra. } unfold Rdiv. apply Rmult_lt_compat_r; [now apply Rinv_0_lt_compat|lra].
Qed.
Theorem C61_limits : forall c h kb e A T x, 0 < c -> 0 < h -> 0 < kb -> 0 < A -> 0 < T -> 0 < x ->
  A * (2 * h * x ^ 3 / c ^ 2) * exp (- (h * x / (kb * T))) < blackbody c h kb e UHz A T x < A * (2 * kb * T * x ^ 2 / c ^ 2).
Proof.
  intros c h kb e A T x Pc Ph Pk PA PT Px. unfold blackbody. cbn [ptype scale]. rewrite !Rmult_1_r. unfold fnu.
  assert (0 < h * x / (kb * T)) as Y by (apply Rdiv_lt_0_compat; nra). pose proof (exp_gt_1 _ Y). pose proof (exp_ineq1 _ ltac:(apply Rgt_not_eq; exact Y)) as Q. pose proof (exp_pos (h * x / (kb * T))).
  assert (K : 0 < A * 2 * h / c / c * x ^ 3). { pos. } split.
  - rewrite exp_Ropp. replace (A * (2 * h * x ^ 3 / c ^ 2)) with (A * 2 * h / c / c * x ^ 3) by (field; lra). unfold Rdiv at 3. apply Rmult_lt_compat_l; [lra|]. apply Rinv_lt_contravar; [apply Rmult_lt_0_compat; lra|lra].
  - apply Rlt_le_trans with (A * 2 * h / c / c * x ^ 3 / (h * x / (kb * T))).
    + unfold Rdiv at 1 5. apply Rmult_lt_compat_l; [lra|]. apply Rinv_lt_contravar; [apply Rmult_lt_0_compat; lra|lra].
    + right. field. repeat split; nra.
Qed.

(** C61, wienDisplacementLaw of a peak is the temperature with that peak (wavelengths in cm and m... all wavelength units, and Hz) *)
Theorem C61_wien_inverse : forall h kb e u T, 0 < h -> 0 < kb -> 0 < e -> 0 < T -> ptype u = Wav \/ u = UHz ->
  wien_temp h kb e u (wien_peak h kb e u T) = T.
Proof.
  intros h kb e u T Ph Pk Pe PT U. pose proof (scale_pos e u Pe) as Su. unfold wien_temp, wien_peak. destruct U as [->| ->].
  - field. repeat split; try lra.
  - cbn [ptype scale]. field. lra.
Qed.
(** ... not in THz, where it is off by the square of the unit, nor for energies, whose peak is not 2.82 kT *)
Theorem C61_wien_thz_refuted : forall h kb e T, 0 < h -> 0 < kb -> 0 < T -> wien_temp h kb e UTHz (wien_peak h kb e UTHz T) = T / 10 ^ 24.
Proof. intros. unfold wien_temp, wien_peak. cbn [ptype scale]. field. lra. Qed.
Theorem C61_wien_energy_refuted : forall h kb e u T, 0 < h -> 0 < kb -> 0 < e -> 0 < T -> ptype u = En -> kb * h <> 1 ->
  wien_peak h kb e u T * scale e u <> 2.821439 * (kb * T) /\ (u = UeV -> wien_temp h kb e u (wien_peak h kb e u T) = T / e ^ 2).
Proof.
  intros h kb e u T Ph Pk Pe PT U K. pose proof (scale_pos e u Pe) as Su. unfold wien_temp, wien_peak. rewrite U. split.
  - intros E. apply K. replace (2.821439 * T / h / scale e u * scale e u) with (2.821439 * T / h * 1) in E by (field; split; lra). replace (2.821439 * (kb * T)) with (2.821439 * T / h * (kb * h)) in E by (field; lra). apply Rmult_eq_reg_l in E; [lra|]. apply Rgt_not_eq. pos.
  - intros ->. cbn [scale]. field. lra.
Qed.

(** C61, the peak property *)
Theorem C61_peak : forall c h kb e u T p, 0 < c -> 0 < h -> 0 < kb -> 0 < e -> 0 < T ->
  match set_peak c h kb e u T p with
  | Ok A => get_peak c h kb e u A T = Ok p /\ blackbody c h kb e u A T (wien_peak h kb e u T) = p
  | Raise x => ptype u = En /\ x = NotImplementedError
  | OutOfFuel => False
  end.
Proof.
  intros c h kb e u T p Pc Ph Pk Pe PT. unfold set_peak, get_peak, wien_peak. pose proof (scale_pos e u Pe) as Su.
  pose proof (fun x Q => C61_hotter c h kb e u 1 T (T + 1) x Pc Ph Pk Pe Rlt_0_1 (conj PT (Rlt_plus_1 T)) Q) as Pos.
  assert (Lin : forall A x, blackbody c h kb e u A T x = A * blackbody c h kb e u 1 T x).
  { intros. unfold blackbody, fen, fnu, flambda, Rdiv. destruct (ptype u); ring. }
  destruct (ptype u); [| |split; trivial].
  - set (x := 0.28977685 / T / scale e u) in *. destruct (Pos x) as [Q _]. { unfold x. pos. }
    rewrite (Lin (p / _)). split; [f_equal|]; field; lra.
  - assert (E : 2.821439 * kb * T / h / scale e u = 2.821439 / h * kb * T / scale e u) by (field; lra). rewrite E.
    set (x := 2.821439 / h * kb * T / scale e u) in *. destruct (Pos x) as [Q _]. { unfold x. pos. }
    rewrite (Lin (p / _)). split; [f_equal|]; field; lra.
Qed.

(** C61, flux: after setFlux(r, d) the model is pi (r/d)^2 times the intensity; getFluxRadius and getFluxDistance return r and d; and getFlux with only one of the two does not change the model *)
Theorem C61_flux : forall c h kb e u T x r d, 0 < r -> 0 < d ->
  blackbody c h kb e u (set_flux r d) T x = PI * (r / d) ^ 2 * blackbody c h kb e u 1 T x /\ flux_radius (set_flux r d) d = r /\ flux_distance (set_flux r d) r = d.
Proof.
  intros c h kb e u T x r d Pr Pd. pose proof PI_RGT_0. split; [|split].
  - unfold blackbody, fen, fnu, flambda, set_flux, Rdiv. destruct (ptype u); ring.
  - unfold flux_radius, set_flux. replace (PI * (r / d) * (r / d) * d * d / PI) with (r * r) by (field; lra). apply sqrt_square; lra.
  - unfold flux_distance, set_flux. replace (PI * r * r / (PI * (r / d) * (r / d))) with (d * d) by (field; lra). apply sqrt_square; lra.
Qed.
Theorem C61_get_flux : forall c h kb e u A T x r, 0 < A -> 0 < r ->
  get_flux c h kb e u A T x (Some r) None = (A, blackbody c h kb e u A T x) /\ get_flux c h kb e u A T x None (Some r) = (A, blackbody c h kb e u A T x) /\ get_flux c h kb e u A T x None None = (A, blackbody c h kb e u A T x).
Proof.
  intros c h kb e u A T x r PA Pr. pose proof PI_RGT_0. unfold get_flux. split; [|split]; trivial.
  - assert (E : set_flux r (flux_distance A r) = A); [|now rewrite E]. unfold set_flux, flux_distance. assert (0 < PI * r * r / A) as Q by pos.
    pose proof (sqrt_lt_R0 _ Q). pose proof (sqrt_sqrt _ (Rlt_le _ _ Q)) as SS. set (s := sqrt _) in *. clearbody s. 
    replace (PI * (r / s) * (r / s)) with (PI * r * r / (s * s)) by (field; lra). rewrite SS. field. lra.
  - assert (E : set_flux (flux_radius A r) r = A); [|now rewrite E]. unfold set_flux, flux_radius. assert (0 < A * r * r / PI) as Q by pos.
    pose proof (sqrt_sqrt _ (Rlt_le _ _ Q)) as SS. set (s := sqrt _) in *. clearbody s.
    replace (PI * (s / r) * (s / r)) with (PI * (s * s) / r / r) by (field; lra). rewrite SS. field. lra.
Qed.
(** C61, Stefan-Boltzmann *)
Theorem C61_stefan_boltzmann : forall c h kb T T0 area, 0 < c -> 0 < h -> 0 < kb -> 0 < T0 -> 0 < area ->
  stefan_boltzmann c h kb T area = stefan_boltzmann c h kb T0 area * (T / T0) ^ 4 /\ 0 < stefan_boltzmann c h kb T0 area /\ stefan_boltzmann c h kb T area = area * stefan_boltzmann c h kb T 1.
Proof.
  intros c h kb T T0 area Pc Ph Pk PT Pa. pose proof PI_RGT_0. unfold stefan_boltzmann. split; [|split].
  - field. repeat split; lra.
  - pos.
  - ring.
Qed.
(** a blackbody of 5800 K, in Angstrom: brighter at 4900 than at 4000, fainter at 7000 than at 5100 *)
Example C61_nonvacuous : let f := blackbody c_cgs h_cgs kb_cgs ev_cgs UAng 1 5800 in f 4000 < f 4900 /\ f 7000 < f 5100.
Proof.
  intros f. pose proof (C61_wien UAng 1 5800 4000 4900) as L. pose proof (C61_wien UAng 1 5800 5100 7000) as R.
  assert (E : wien_peak h_cgs kb_cgs ev_cgs UAng 5800 = 28977685 / 5800). { unfold wien_peak. cbn [ptype scale]. lra. }
  cbv zeta in L, R. rewrite E in L, R. destruct L as [L _]; [discriminate|lra|lra|lra|]. destruct R as [_ R]; [discriminate|lra|lra|lra|]. split; [apply L|apply R]; lra.
Qed.
