(** * AxProof: axes of spectra (C114) *)
From Coq Require Import List Bool Reals Lra Lia ZArith String Arith Sorted.
From Verif Require Import PyBase AlgModel AlgClip CosmoDistModel PhotModel SpecModel SpecLineModel SpecResample AxModel.
Import ListNotations.
Open Scope R_scope.

(** ** Sums *)
Definition add_up (l : list R) : R := fold_right Rplus 0 l.
Lemma add_up_app a b : add_up (a ++ b) = add_up a + add_up b.
Proof. unfold add_up. induction a as [|x a I]; cbn [app fold_right]; [ring|rewrite I; ring]. Qed.
Lemma add_up_nonneg l : (forall y, In y l -> 0 <= y) -> 0 <= add_up l.
Proof. unfold add_up. induction l as [|a l I]; intros H; cbn [fold_right]; [lra|]. assert (0 <= a) by (apply H; now left). assert (0 <= fold_right Rplus 0 l); [|lra]. apply I. intros; apply H; now right. Qed.
Lemma shifted_squares c l : add_up (map (fun y => (y - c) * (y - c)) l) = add_up (map (fun y => y * y) l) - 2 * c * add_up l + INR (List.length l) * (c * c).
Proof. unfold add_up. induction l as [|a l I]; [cbn; ring|]. cbn [map fold_right]. change (List.length (a :: l)) with (S (List.length l)). rewrite S_INR, I. ring. Qed.
(** Cauchy and Schwarz *)
Lemma sum_square l : add_up l * add_up l <= INR (List.length l) * add_up (map (fun y => y * y) l).
Proof.
  destruct l as [|a r] eqn:E; [cbn; lra|]. rewrite <- E. assert (P : 0 < INR (List.length l)) by (rewrite E; apply lt_0_INR; cbn; lia). set (n := INR (List.length l)) in *. set (c := add_up l / n).
  pose proof (shifted_squares c l) as S. fold n in S. assert (0 <= add_up (map (fun y => (y - c) * (y - c)) l)) as Q. { apply add_up_nonneg. intros y Y. apply in_map_iff in Y. destruct Y as (z & <- & _). apply Rle_0_sqr. }
  assert (Ec : add_up l = c * n) by (unfold c; field; lra). rewrite Ec in *. rewrite S in Q. clear S. apply Rmult_le_compat_l with (r := n) in Q; [|lra]. rewrite Rmult_0_r in Q. nra.
Qed.
Lemma std_eq l : l <> [] -> let c := add_up l / INR (List.length l) in 0 <= std l /\ INR (List.length l) * (std l * std l) = add_up (map (fun y => (y - c) * (y - c)) l).
Proof.
  intros N c. assert (P : 0 < INR (List.length l)) by (apply lt_0_INR; destruct l; [congruence|cbn; lia]). assert (M : AlgModel.mean l = Some c) by (destruct l; [congruence|reflexivity]).
  unfold std, AlgModel.var. rewrite M. unfold rlen. change rsum with add_up. clearbody c.
  split; [apply sqrt_pos|]. rewrite sqrt_sqrt. { field. lra. } apply Rmult_le_pos; [|left; now apply Rinv_0_lt_compat]. apply add_up_nonneg. intros y Y. apply in_map_iff in Y. destruct Y as (z & <- & _). apply Rle_0_sqr.
Qed.
Lemma std_const c n : std (repeat c n) = 0.
Proof.
  destruct n as [|n]; [reflexivity|]. set (l := repeat c (S n)). assert (N : l <> []) by discriminate. destruct (std_eq l N) as (P & E). assert (Lp : 0 < INR (List.length l)) by (apply lt_0_INR; unfold l; rewrite repeat_length; lia).
  assert (A : add_up l = INR (List.length l) * c). { clear. unfold l, add_up. rewrite repeat_length. generalize (S n). intros k. induction k as [|k I]; [cbn; ring|]. rewrite S_INR. cbn [repeat fold_right]. rewrite I. ring. }
  rewrite A in E. replace (INR (List.length l) * c / INR (List.length l)) with c in E by (field; lra).
  assert (Z : add_up (map (fun y => (y - c) * (y - c)) l) = 0). { clear. unfold l, add_up. generalize (S n). intros k. induction k as [|k I]; [reflexivity|]. cbn [repeat map fold_right]. rewrite I. ring. }
  rewrite Z in E. apply Rmult_integral in E. destruct E as [E|E]; [lra|]. apply Rmult_integral in E. destruct E; trivial.
Qed.
(** deviations from the mean add up to at most n std, and each is at most sqrt n std *)
Lemma std_deviation l i : l <> [] -> (i <= List.length l)%nat -> let c := add_up l / INR (List.length l) in Rabs (add_up (firstn i l) - INR i * c) <= INR (List.length l) * std l.
Proof.
  intros N Hi c. destruct (std_eq l N) as (P & E). fold c in E. assert (Lp : 0 < INR (List.length l)) by (apply lt_0_INR; destruct l; [congruence|cbn; lia]).
  set (f := firstn i l). assert (Lf : List.length f = i) by (unfold f; rewrite firstn_length; lia). set (d := map (fun y => y - c) f).
  assert (Ed : add_up d = add_up f - INR i * c). { unfold d. rewrite <- Lf. clear. induction f as [|a f I]; [cbn; ring|]. cbn [map]. change (List.length (a :: f)) with (S (List.length f)). rewrite S_INR. cbn [add_up fold_right] in *. unfold add_up in *. rewrite I. ring. }
  rewrite <- Ed. pose proof (sum_square d) as Q. assert (Ld : List.length d = i) by (unfold d; now rewrite map_length). rewrite Ld in Q.
  assert (S2 : add_up (map (fun y => y * y) d) <= INR (List.length l) * (std l * std l)).
  { rewrite E. unfold d, f. rewrite map_map. rewrite <- (firstn_skipn i l) at 2. rewrite map_app, add_up_app. assert (0 <= add_up (map (fun y => (y - c) * (y - c)) (skipn i l))); [|lra]. apply add_up_nonneg. intros y Y. apply in_map_iff in Y. destruct Y as (z & <- & _). apply Rle_0_sqr. }
  apply Rsqr_incr_0_var; [|apply Rmult_le_pos; lra]. rewrite <- Rsqr_abs. unfold Rsqr. apply Rle_trans with (1 := Q). assert (INR i <= INR (List.length l)) by (apply le_INR; exact Hi). assert (0 <= INR i) by apply pos_INR.
  apply Rle_trans with (INR i * (INR (List.length l) * (std l * std l))); [apply Rmult_le_compat_l; lra|]. replace (INR (List.length l) * std l * (INR (List.length l) * std l)) with (INR (List.length l) * (INR (List.length l) * (std l * std l))) by ring. apply Rmult_le_compat_r; trivial. apply Rmult_le_pos; [lra|apply Rle_0_sqr].
Qed.
Lemma std_each l y : In y l -> let c := add_up l / INR (List.length l) in Rabs (y - c) <= sqrt (INR (List.length l)) * std l.
Proof.
  intros Y c. assert (N : l <> []) by (intros ->; contradiction). destruct (std_eq l N) as (P & E). fold c in E. assert (Lp : 0 < INR (List.length l)) by (apply lt_0_INR; destruct l; [congruence|cbn; lia]).
  apply Rsqr_incr_0_var; [|apply Rmult_le_pos; [apply sqrt_pos|lra]]. rewrite <- Rsqr_abs, Rsqr_mult, Rsqr_sqrt by lra. unfold Rsqr. rewrite E. clear - Y. apply in_split in Y. destruct Y as (a & b & ->). rewrite map_app, add_up_app. cbn [map]. unfold add_up at 2. cbn [fold_right]. fold (add_up (map (fun y => (y - c) * (y - c)) b)).
  assert (G : forall k, 0 <= add_up (map (fun y => (y - c) * (y - c)) k)). { intros k. apply add_up_nonneg. intros z Z. apply in_map_iff in Z. destruct Z as (w & <- & _). apply Rle_0_sqr. } pose proof (G a). pose proof (G b). lra.
Qed.
(** ** Spacings *)
Lemma diffs_sum x : forall i, (i < List.length x)%nat -> add_up (firstn i (diffs x)) = nth i x 0 - nth 0 x 0.
Proof.
  destruct (diffs_nth x) as (Ld & Nd). induction i as [|i I]; intros Hi; [cbn; ring|].
  assert (E : firstn (S i) (diffs x) = firstn i (diffs x) ++ [nth i (diffs x) 0]). { clear - Hi Ld. assert (Hl : (i < List.length (diffs x))%nat) by lia. clear - Hl. revert i Hl. induction (diffs x) as [|a l J]; intros [|i] H; cbn [List.length] in H; try lia; trivial. cbn [firstn nth app]. f_equal. apply J. lia. }
  rewrite E, add_up_app, I, Nd by lia. cbn [add_up fold_right]. unfold add_up. cbn [fold_right]. ring.
Qed.
(** getDx: one element less, the differences of neighbours; their mean is that of the whole axis *)
Theorem dx_spacing x : (2 <= List.length x)%nat -> exists d, getDx x = Ok d /\ List.length d = (List.length x - 1)%nat /\ (forall i, (S i < List.length x)%nat -> nth i d 0 = nth (S i) x 0 - nth i x 0) /\
  mean_of d * INR (List.length x - 1) = nth (List.length x - 1) x 0 - nth 0 x 0.
Proof.
  intros L. destruct (diffs_nth x) as (Ld & Nd). exists (diffs x). split. { unfold getDx, conv_diff. destruct x as [|a [|b r]]; cbn [List.length] in L; try lia. reflexivity. } split; trivial. split; trivial.
  rewrite <- (diffs_sum x (List.length x - 1)) by lia. rewrite firstn_all2 by lia. unfold mean_of, AlgModel.mean, rlen. destruct (diffs x) as [|a r] eqn:E; [cbn in Ld; lia|]. rewrite <- E in *. change (rsum (diffs x)) with (add_up (diffs x)). rewrite Ld. field. apply not_0_INR. lia.
Qed.
Theorem dlogx_spacing x base : (2 <= List.length x)%nat -> List.Forall (fun v => 0 < v) x -> 0 < base -> base <> 1 -> exists d, getDlogx x base = Ok d /\ List.length d = (List.length x - 1)%nat /\
  (forall i, (S i < List.length x)%nat -> Rpower base (nth i d 0) = nth (S i) x 0 / nth i x 0).
Proof.
  intros L Px Pb Nb. set (y := map (fun v => ln v / ln base) x). assert (Ly : List.length y = List.length x) by (unfold y; now rewrite map_length).
  destruct (dx_spacing y) as (d & E & Ld & Nd & _); [lia|]. exists d. split; [exact E|]. split; [lia|]. intros i Hi. rewrite Nd by lia.
  assert (Ny : forall k, (k < List.length x)%nat -> nth k y 0 = ln (nth k x 0) / ln base). { intros k K. unfold y. rewrite (nth_indep _ 0 (ln 0 / ln base)) by (rewrite map_length; lia). apply (map_nth (fun v => ln v / ln base)). }
  rewrite !Ny by lia. rewrite List.Forall_forall in Px. assert (P1 : 0 < nth (S i) x 0) by (apply Px, nth_In; lia). assert (P0 : 0 < nth i x 0) by (apply Px, nth_In; lia).
  assert (Lb : ln base <> 0). { intros Z. apply Nb. rewrite <- (exp_ln base) by trivial. now rewrite Z, exp_0. }
  unfold Rpower. replace ((ln (nth (S i) x 0) / ln base - ln (nth i x 0) / ln base) * ln base) with (ln (nth (S i) x 0) - ln (nth i x 0)) by (field; trivial). unfold Rminus, Rdiv. rewrite exp_plus, exp_Ropp, !exp_ln by trivial. reflexivity.
Qed.
(** one pixel: two elements *)
Theorem dx_one_pixel_refuted a : getDx [a] = Ok [a; - a].
Proof. reflexivity. Qed.
(** ** isLinear and isLogarithmic *)
Lemma below_true l eps : below (Ok l) eps = Ok true <-> std l < eps.
Proof. unfold below. destruct (Rlt_dec (std l) eps); split; intros H; trivial; try discriminate; contradiction. Qed.
Lemma equal_repeat (c : R) l : (forall y, In y l -> y = c) -> l = repeat c (List.length l).
Proof. induction l as [|a l I]; intros H; trivial. cbn [List.length repeat]. rewrite <- I by (intros; apply H; now right). now rewrite (H a) by now left. Qed.
Lemma linear_deviation x eps : (2 <= List.length x)%nat -> isLinear x eps = Ok true -> let n := List.length x in let d := (nth (n - 1) x 0 - nth 0 x 0) / INR (n - 1) in
  forall i, (i < n)%nat -> Rabs (nth i x 0 - (nth 0 x 0 + INR i * d)) < INR (n - 1) * eps.
Proof.
  intros L H n d i Hi. destruct (diffs_nth x) as (Ld & _). fold n in Ld. assert (E : getDx x = Ok (diffs x)). { unfold getDx, conv_diff. destruct x as [|a [|b r]]; cbn [List.length] in L; try lia. reflexivity. }
  unfold isLinear in H. rewrite E in H. apply below_true in H. assert (N : diffs x <> []) by (intros Z; rewrite Z in Ld; cbn in Ld; unfold n in *; lia).
  pose proof (std_deviation (diffs x) i N) as D. rewrite Ld in D. specialize (D ltac:(lia)). cbv zeta in D. rewrite diffs_sum in D by exact Hi.
  assert (Ea : add_up (diffs x) = nth (n - 1) x 0 - nth 0 x 0). { rewrite <- diffs_sum by (unfold n; lia). now rewrite firstn_all2 by lia. } rewrite Ea in D. fold d in D.
  replace (nth i x 0 - (nth 0 x 0 + INR i * d)) with (nth i x 0 - nth 0 x 0 - INR i * d) by ring. apply Rle_lt_trans with (1 := D). apply Rmult_lt_compat_l; trivial. apply lt_0_INR. unfold n. lia.
Qed.
Lemma linear_exact x a d eps : (2 <= List.length x)%nat -> 0 < eps -> (forall i, (i < List.length x)%nat -> nth i x 0 = a + INR i * d) -> isLinear x eps = Ok true.
Proof.
  intros L P X. destruct (diffs_nth x) as (Ld & Nd). unfold isLinear. assert (E : getDx x = Ok (diffs x)). { unfold getDx, conv_diff. destruct x as [|u [|v r]]; cbn [List.length] in L; try lia. reflexivity. } rewrite E. apply below_true.
  rewrite (equal_repeat d (diffs x)), std_const; trivial. intros y Y. destruct (In_nth _ _ 0 Y) as (i & Hi & <-). rewrite Nd, !X, S_INR by lia. ring.
Qed.
(** a linear axis is found linear; an axis found linear lies within (n-1) eps of a straight line *)
Theorem linear_test x eps : (2 <= List.length x)%nat -> 0 < eps ->
  ((exists a d, forall i, (i < List.length x)%nat -> nth i x 0 = a + INR i * d) -> isLinear x eps = Ok true) /\
  (isLinear x eps = Ok true -> exists d, forall i, (i < List.length x)%nat -> Rabs (nth i x 0 - (nth 0 x 0 + INR i * d)) < INR (List.length x - 1) * eps).
Proof.
  intros L P. split; [intros (a & d & X); now apply linear_exact with a d|]. intros H. eexists. intros i Hi. apply (linear_deviation x eps); trivial.
Qed.
Lemma log_axis x i : (i < List.length x)%nat -> nth i (map (fun v => ln v / ln 10) x) 0 = ln (nth i x 0) / ln 10.
Proof. intros Hi. rewrite (nth_indep _ 0 (ln 0 / ln 10)) by (rewrite map_length; lia). apply (map_nth (fun v => ln v / ln 10)). Qed.
Lemma ln10 : 0 < ln 10.
Proof. rewrite <- ln_1. apply ln_increasing; lra. Qed.
(** the same for ratios *)
Theorem logarithmic_test x eps : (2 <= List.length x)%nat -> 0 < eps -> List.Forall (fun v => 0 < v) x ->
  ((exists a r, 0 < a /\ 0 < r /\ forall i, (i < List.length x)%nat -> nth i x 0 = a * r ^ i) -> isLogarithmic x eps = Ok true) /\
  (isLogarithmic x eps = Ok true -> exists r, 0 < r /\ forall i, (i < List.length x)%nat -> Rpower 10 (- (INR (List.length x - 1) * eps)) < nth i x 0 / (nth 0 x 0 * r ^ i) < Rpower 10 (INR (List.length x - 1) * eps)).
Proof.
  intros L P Px. set (y := map (fun v => ln v / ln 10) x). assert (Ly : List.length y = List.length x) by (unfold y; now rewrite map_length). change (isLogarithmic x eps) with (isLinear y eps). pose proof ln10 as L10. split.
  - intros (a & r & Pa & Pr & X). apply linear_exact with (ln a / ln 10) (ln r / ln 10); trivial; [lia|]. intros i Hi. unfold y. rewrite log_axis by lia. rewrite X by lia. rewrite ln_mult by (trivial; apply pow_lt; trivial).
    replace (ln (r ^ i)) with (INR i * ln r); [field; lra|]. symmetry. apply ln_pow. trivial.
  - intros H. rewrite <- Ly in *. pose proof (linear_deviation y eps L H) as D. cbv zeta in D. set (d := (nth (List.length y - 1) y 0 - nth 0 y 0) / INR (List.length y - 1)) in *. exists (Rpower 10 d). split; [apply exp_pos|]. intros i Hi. specialize (D i Hi).
    rewrite Ly in Hi. unfold y in D at 1 2. rewrite !log_axis in D by lia. rewrite List.Forall_forall in Px. assert (P0 : 0 < nth 0 x 0) by (apply Px, nth_In; lia). assert (Pi : 0 < nth i x 0) by (apply Px, nth_In; lia).
    assert (E : nth i x 0 / (nth 0 x 0 * Rpower 10 d ^ i) = Rpower 10 (ln (nth i x 0) / ln 10 - (ln (nth 0 x 0) / ln 10 + INR i * d))).
    { rewrite <- Rpower_pow by apply exp_pos. rewrite Rpower_mult. unfold Rpower. replace ((ln (nth i x 0) / ln 10 - (ln (nth 0 x 0) / ln 10 + INR i * d)) * ln 10) with (ln (nth i x 0) + - (ln (nth 0 x 0) + d * INR i * ln 10)) by (field; lra). rewrite exp_plus, exp_Ropp, exp_plus, !exp_ln by trivial. reflexivity. }
    rewrite E. apply Rabs_def2 in D. split; apply Rpower_lt; lra.
Qed.
(** linearize and logify make them so *)
Theorem linearize_linear s lower upper eps : pixels s -> (2 <= List.length (sx s))%nat -> 0 < eps -> exists s' r, linearize s lower upper true = (s', Ok r) /\ isLinear (sx s') eps = Ok true.
Proof.
  intros Ps L P. destruct (C52_linearize s lower upper Ps L) as (s' & r & E & Ln & _ & _ & (d & F & _) & _). exists s', r. split; trivial. unfold isLinear. assert (Ed : getDx (sx s') = Ok (diffs (sx s'))). { unfold getDx, conv_diff. destruct (sx s') as [|u [|v q]]; cbn [List.length] in Ln; try lia. reflexivity. } rewrite Ed. apply below_true.
  rewrite List.Forall_forall in F. rewrite (equal_repeat d (diffs (sx s'))) by exact F. now rewrite std_const.
Qed.
Theorem logify_logarithmic s lower upper eps : pixels s -> (2 <= List.length (sx s))%nat -> 0 < eps -> List.Forall (fun x => 0 < x) (sx s) -> (forall l, lower = Some l -> 0 < l) -> (forall u, upper = Some u -> 0 < u) ->
  exists s' r, logify s lower upper true = (s', Ok r) /\ isLogarithmic (sx s') eps = Ok true.
Proof.
  intros Ps L P Px Pl Pu. destruct (C52_logify s lower upper 10 Ps L Px Pl Pu) as (s' & r & E & Ln & _ & _ & (d & F & _) & _). exists s', r. split; trivial. unfold isLogarithmic, AxModel.getDlogx. unfold SpecLineModel.getDlogx in F.
  set (y := map (fun v => ln v / ln 10) (sx s')) in *. assert (Ed : conv_diff y = Ok (diffs y)). { assert (Ly : List.length y = List.length (sx s)) by (unfold y; rewrite map_length; exact Ln). unfold conv_diff. destruct y as [|u [|v q]]; cbn [List.length] in Ly; try lia. reflexivity. } rewrite Ed. apply below_true.
  rewrite List.Forall_forall in F. rewrite (equal_repeat d (diffs y)) by exact F. now rewrite std_const.
Qed.
(** ** isXMatched *)
Lemma map2_len (f : R -> R -> R) a : forall b, List.length a = List.length b -> List.length (map2 f a b) = List.length a.
Proof. induction a as [|x a I]; intros [|y b] E; try discriminate; trivial. cbn. f_equal. apply I. now injection E. Qed.
Lemma map2_nth a : forall b i, List.length a = List.length b -> (i < List.length a)%nat -> nth i (map2 Rminus a b) 0 = nth i a 0 - nth i b 0.
Proof. induction a as [|x a I]; intros [|y b] [|i] E Hi; try discriminate; cbn [List.length] in Hi; try lia; trivial. cbn [map2 nth]. apply I; [now injection E|lia]. Qed.
(** equal axes match; matching axes of one length differ by a constant, except for sqrt n tol at each pixel *)
Theorem matched_axes x ox tol : x <> [] -> List.length ox = List.length x -> 0 < tol ->
  (ox = x -> isXMatched x ox tol = true) /\
  (isXMatched x ox tol = true -> exists c, forall i, (i < List.length x)%nat -> Rabs (nth i x 0 - nth i ox 0 - c) < sqrt (INR (List.length x)) * tol).
Proof.
  intros N L P. unfold isXMatched. rewrite L, Nat.eqb_refl. split.
  - intros ->. assert (E : map2 Rminus x x = repeat 0 (List.length x)). { clear. induction x as [|a x I]; trivial. unfold map2 in *. cbn [map combine List.length repeat fst snd]. rewrite I. f_equal. ring. } rewrite E, std_const. destruct (Rlt_dec 0 tol); [reflexivity|lra].
  - destruct (Rlt_dec (std (map2 Rminus x ox)) tol) as [H|H]; [intros _|discriminate]. set (l := map2 Rminus x ox) in *. assert (Ll : List.length l = List.length x) by (unfold l; apply map2_len; congruence). exists (add_up l / INR (List.length l)). intros i Hi.
    pose proof (std_each l (nth i l 0)) as S. cbv zeta in S. specialize (S ltac:(apply nth_In; lia)). unfold l at 1 in S. rewrite map2_nth in S by (congruence || lia). rewrite Ll in *. apply Rle_lt_trans with (1 := S). apply Rmult_lt_compat_l; trivial. apply sqrt_lt_R0. apply lt_0_INR. lia.
Qed.
(** every shifted axis matches *)
Theorem shifted_refuted x c tol : 0 < tol -> isXMatched x (map (fun v => v + c) x) tol = true.
Proof.
  intros P. unfold isXMatched. rewrite map_length, Nat.eqb_refl. assert (E : map2 Rminus x (map (fun v => v + c) x) = repeat (- c) (List.length x)). { induction x as [|a x I]; trivial. unfold map2 in *. cbn [map combine List.length repeat fst snd]. rewrite I. f_equal. ring. } rewrite E, std_const. destruct (Rlt_dec 0 tol); [reflexivity|lra].
Qed.
Theorem other_length x ox tol : List.length ox <> List.length x -> List.length x <> 1%nat -> List.length ox <> 1%nat -> isXMatched x ox tol = false.
Proof.
  intros N A B. unfold isXMatched. destruct (Nat.eqb_spec (List.length x) (List.length ox)); [congruence|]. destruct ox as [|o [|o' ox]]; destruct x as [|v [|v' x]]; cbn [List.length] in *; try reflexivity; lia.
Qed.
(** ** align_spectra *)
(** [t] is the first of the spectra with the largest mean spacing *)
Definition coarsest (f : spectrum -> R) (specs : list spectrum) (t : spectrum) : Prop := exists before after, specs = before ++ t :: after /\ (forall s, In s before -> f s < f t) /\ (forall s, In s after -> f s <= f t).
Definition spacing (logres : bool) (s : spectrum) : R := let n := List.length (sx s) in
  if logres then (log10 (nth (n - 1) (sx s) 0) - log10 (nth 0 (sx s) 0)) / INR (n - 1) else (nth (n - 1) (sx s) 0 - nth 0 (sx s) 0) / INR (n - 1).
Lemma first_max_spec l : forall i bi b, let k := first_max i bi b l in
  (k = bi /\ (forall a, In a l -> a <= b)) \/ (exists j m, k = (i + j)%nat /\ nth_error l j = Some m /\ b < m /\ (forall a, In a l -> a <= m) /\ forall j' a, (j' < j)%nat -> nth_error l j' = Some a -> a < m).
Proof.
  induction l as [|a l I]; intros i bi b; cbn [first_max]; [left; split; trivial; contradiction|]. destruct (Rlt_dec b a) as [H|H].
  - destruct (I (S i) i a) as [(E & A)|(j & m & E & N & Lt & A & B)]; right.
    + exists 0%nat, a. rewrite E. repeat split; trivial; [lia| |lia]. intros y [<-|Y]; [lra|now apply A].
    + exists (S j), m. rewrite E. repeat split; trivial; [lia|lra| |]. { intros y [<-|Y]; [lra|now apply A]. } intros [|j'] y Hj Ny; cbn [nth_error] in Ny; [injection Ny as <-; lra|]. apply (B j'); trivial. lia.
  - destruct (I (S i) bi b) as [(E & A)|(j & m & E & N & Lt & A & B)].
    + left. split; trivial. intros y [<-|Y]; [lra|now apply A].
    + right. exists (S j), m. rewrite E. repeat split; trivial; [lia| |]. { intros y [<-|Y]; [lra|now apply A]. } intros [|j'] y Hj Ny; cbn [nth_error] in Ny; [injection Ny as <-; lra|]. apply (B j'); trivial. lia.
Qed.
Lemma all_res_map {A B} (f : A -> @res B) (g : A -> B) l : (forall a, In a l -> f a = Ok (g a)) -> all_res f l = Ok (map g l).
Proof. induction l as [|a l I]; intros H; trivial. cbn [all_res map]. rewrite H by now left. rewrite I by (intros; apply H; now right). reflexivity. Qed.
Lemma spacing_mean logres s : (2 <= List.length (sx s))%nat ->
  (match (if (logres : bool) then AxModel.getDlogx (sx s) 10 else getDx (sx s)) with Ok l => Ok (mean_of l) | Raise e => Raise e | OutOfFuel => OutOfFuel end) = Ok (spacing logres s).
Proof.
  intros L. assert (Nz : INR (List.length (sx s) - 1) <> 0) by (apply not_0_INR; lia). destruct logres; unfold spacing.
  - unfold AxModel.getDlogx. set (y := map (fun v => ln v / ln 10) (sx s)). assert (Ly : List.length y = List.length (sx s)) by (unfold y; now rewrite map_length). destruct (dx_spacing y) as (d & E & _ & _ & M); [lia|]. change (conv_diff y) with (getDx y). rewrite E. f_equal. rewrite Ly in M. unfold y in M. rewrite !log_axis in M by lia. apply Rmult_eq_reg_r with (INR (List.length (sx s) - 1)); trivial. rewrite M. unfold log10. field. pose proof ln10. split; trivial; lra.
  - destruct (dx_spacing (sx s) L) as (dd & E & _ & _ & M). rewrite E. f_equal. apply Rmult_eq_reg_r with (INR (List.length (sx s) - 1)); trivial. rewrite M. field. trivial.
Qed.
(** [s'] is [s] on the axis [x], its flux and errors interpolated *)
Definition moved (x : list R) (s s' : spectrum) : Prop :=
  sx s' = x /\ (forall i, (i < List.length x)%nat -> interpolates (sx s) (sflux s) (nth i x 0) (nth i (sflux s') 0) /\ interpolates (sx s) (serr s) (nth i x 0) (nth i (serr s') 0)) /\
  List.length (sflux s') = List.length x /\ List.length (serr s') = List.length x /\ sunit s' = sunit s /\ scont s' = scont s /\ scontop s' = scontop s /\ sz s' = sz s.
Lemma resample_all_ok x l : (forall s, In s l -> pixels s /\ List.length (sx s) = List.length x) -> exists l', resample_all x l = (l', Ok tt) /\ Forall2 (moved x) l l'.
Proof.
  induction l as [|s l I]; intros H; cbn [resample_all]; [exists []; split; [reflexivity|constructor]|]. destruct (H s (or_introl eq_refl)) as (Ps & Ls). pose proof (C52_resample s x true Ps) as R. destruct (resample s x true) as (s', o). rewrite Ls, Nat.eqb_refl in R. cbn [andb negb] in R.
  destruct R as (nf & ne & -> & Lf & Le & Ip & Ex & Ef & Ee & Eu & Ec & Eo & Ez). destruct I as (l' & E & F); [intros; apply H; now right|]. rewrite E. exists (s' :: l'). split; trivial. constructor; trivial. unfold moved. rewrite Ex, Ef, Ee. repeat split; trivial; now apply Ip.
Qed.
Lemma align_eq specs mode : specs <> [] -> (contains "super" mode = true \/ contains "sub" mode = true) -> (forall s, In s specs -> pixels s /\ (2 <= List.length (sx s))%nat) ->
  exists t, coarsest (spacing (contains "log" mode)) specs t /\ align_spectra specs mode = resample_all (sx t) specs.
Proof.
  intros N M Ps. unfold align_spectra. assert (negb (contains "super" mode) && negb (contains "sub" mode) = false) as ->. { destruct M as [-> | ->]; [reflexivity|]. apply andb_false_r. }
  rewrite (all_res_map _ (spacing (contains "log" mode))). 2:{ intros s H. apply spacing_mean. now apply Ps. } destruct specs as [|s0 r] eqn:Es; [congruence|]. rewrite <- Es in *. assert (Em : map (spacing (contains "log" mode)) specs = spacing (contains "log" mode) s0 :: map (spacing (contains "log" mode)) r) by now rewrite Es. rewrite Em.
  set (f := spacing (contains "log" mode)) in *. assert (exists before t after, specs = before ++ t :: after /\ first_max 1 0 (f s0) (map f r) = List.length before /\ (forall s, In s before -> f s < f t) /\ (forall s, In s after -> f s <= f t)) as (before & t & after & E & K & B & A).
  { destruct (first_max_spec (map f r) 1 0 (f s0)) as [(E & A)|(j & m & E & Nj & Lt & A & B)].
    - exists [], s0, r. rewrite E. repeat split; trivial; [contradiction|]. intros s S. apply A. now apply in_map.
    - rewrite nth_error_map in Nj. destruct (nth_error r j) as [t|] eqn:Et; [|discriminate]. injection Nj as Em'. destruct (nth_error_split _ _ Et) as (b & a & Er & Lb). exists (s0 :: b), t, a. rewrite E, Es, Er. repeat split; [cbn [List.length]; lia| |].
      + intros s [<-|S]; [lra|]. apply In_nth_error in S. destruct S as (q & Q). assert (Hq : (q < List.length b)%nat) by (apply nth_error_Some; congruence). rewrite Em'. apply (B q); [lia|]. rewrite nth_error_map, Er, nth_error_app1 by lia. now rewrite Q.
      + intros s S. rewrite Em'. apply A. apply in_map. rewrite Er. apply in_app_iff. right. now right. }
  rewrite K. assert (nth_error specs (List.length before) = Some t) as ->. { rewrite E, nth_error_app2, Nat.sub_diag by lia. reflexivity. }
  exists t. split; [exists before, after; auto|reflexivity].
Qed.
(** the spectra get the axis of the one with the largest mean spacing, their fluxes interpolated; that spectrum stays as it is *)
Theorem align_result specs mode : specs <> [] -> (contains "super" mode = true \/ contains "sub" mode = true) ->
  (forall s, In s specs -> pixels s /\ (2 <= List.length (sx s))%nat) -> (forall s t, In s specs -> In t specs -> List.length (sx s) = List.length (sx t)) ->
  exists t specs', coarsest (spacing (contains "log" mode)) specs t /\ align_spectra specs mode = (specs', Ok tt) /\ Forall2 (moved (sx t)) specs specs' /\ In t specs'.
Proof.
  intros N M Ps Ls. destruct (align_eq specs mode N M Ps) as (t & C & Ea). rewrite Ea. exists t. pose proof C as (before & after & E & _). assert (It : In t specs) by (rewrite E; apply in_app_iff; right; now left).
  destruct (resample_all_ok (sx t) specs) as (l' & El & F). { intros s S. split; [now apply Ps|now apply Ls]. } exists l'. split; trivial. split; trivial. split; trivial.
  assert (resample_all (sx t) specs = (l', Ok tt) -> In t l') as G; [|now apply G]. clear - E Ps. assert (Pt : pixels t) by (apply Ps; rewrite E; apply in_app_iff; right; now left). rewrite E. clear E Ps. revert l'. induction before as [|b before I]; intros l'; cbn [app resample_all].
  - rewrite (C52_own_x t true Pt). destruct (resample_all (sx t) after) as (r', o). intros Q. injection Q as <- _. now left.
  - destruct (resample b (sx t) true) as (b', [o| |]); try discriminate. destruct (resample_all (sx t) (before ++ t :: after)) as (r', o') eqn:Er. intros Q. injection Q as <- ->. right. now apply I.
Qed.
Lemma resample_all_stop x before b after : (forall s, In s before -> pixels s /\ List.length (sx s) = List.length x) -> pixels b -> List.length (sx b) <> List.length x ->
  exists before', resample_all x (before ++ b :: after) = (before' ++ b :: after, Raise ValueError) /\ Forall2 (moved x) before before'.
Proof.
  intros H Pb Lb. induction before as [|s l I]; cbn [app resample_all].
  - exists []. split; [|constructor]. pose proof (C52_resample b x true Pb) as R. destruct (resample b x true) as (s', o). destruct (Nat.eqb_spec (List.length x) (List.length (sx b))); [congruence|]. cbn [andb negb] in R. destruct R as (-> & ->). reflexivity.
  - destruct (H s (or_introl eq_refl)) as (Ps & Ls). pose proof (C52_resample s x true Ps) as R. destruct (resample s x true) as (s', o). rewrite Ls, Nat.eqb_refl in R. cbn [andb negb] in R.
    destruct R as (nf & ne & -> & Lf & Le & Ip & Ex & Ef & Ee & Eu & Ec & Eo & Ez). destruct I as (l' & E & F); [intros; apply H; now right|]. rewrite E. exists (s' :: l'). split; trivial. constructor; trivial. unfold moved. rewrite Ex, Ef, Ee. repeat split; trivial; now apply Ip.
Qed.
(** a spectrum with another number of pixels than the chosen one: ValueError, after the spectra before it were already changed *)
Theorem partly_aligned_refuted before b after mode : let specs := before ++ b :: after in (contains "super" mode = true \/ contains "sub" mode = true) -> (forall s, In s specs -> pixels s /\ (2 <= List.length (sx s))%nat) ->
  (forall s t, In s before -> coarsest (spacing (contains "log" mode)) specs t -> List.length (sx s) = List.length (sx t)) -> (forall t, coarsest (spacing (contains "log" mode)) specs t -> List.length (sx b) <> List.length (sx t)) ->
  exists t before', coarsest (spacing (contains "log" mode)) specs t /\ align_spectra specs mode = (before' ++ b :: after, Raise ValueError) /\ Forall2 (moved (sx t)) before before'.
Proof.
  intros specs M Ps Ls Lb. destruct (align_eq specs mode) as (t & C & Ea); trivial. { unfold specs. intros Z. now apply app_eq_nil in Z. } rewrite Ea. exists t.
  destruct (resample_all_stop (sx t) before b after) as (l' & E & F). { intros s S. split; [apply Ps; unfold specs; apply in_app_iff; now left|now apply Ls]. } { apply Ps. unfold specs. apply in_app_iff. right. now left. } { now apply Lb. } exists l'. auto.
Qed.
Example partly_witness : let a := Spec [0; 1] [0; 1] [0; 0] UAng None None 0 in let b := Spec [0; 5; 9] [0; 0; 0] [0; 0; 0] UAng None None 0 in let c := Spec [0; 10] [0; 0] [0; 0] UAng None None 0 in
  (forall s, In s [a; b; c] -> pixels s /\ (2 <= List.length (sx s))%nat) /\ forall t, coarsest (spacing false) [a; b; c] t -> t = c.
Proof.
  intros a b c. split.
  - intros s [<-|[<-|[<-|[]]]]; (split; [|cbn; lia]); (split; [|repeat split; discriminate]); unfold increasing; cbn [sx]; repeat constructor; lra.
  - intros t (be & af & E & B & A). assert (spacing false a = 1) as Sa by (unfold spacing; cbn [a sx List.length nth Nat.sub INR]; field). assert (spacing false b = 9 / 2) as Sb by (unfold spacing; cbn [b sx List.length nth Nat.sub INR]; field). assert (spacing false c = 10) as Sc by (unfold spacing; cbn [c sx List.length nth Nat.sub INR]; field).
    clearbody a b c. destruct be as [|? [|? [|? be]]]; injection E; intros; subst.
    + assert (spacing false c <= spacing false t) by (apply A; right; now left). lra.
    + assert (spacing false c <= spacing false t) by (apply A; now left). lra.
    + reflexivity.
    + destruct be; discriminate.
Qed.
(** 'super' is to use the finest axis: it uses the coarsest too *)
Theorem super_refuted specs : align_spectra specs "super" = align_spectra specs "sub".
Proof. reflexivity. Qed.
