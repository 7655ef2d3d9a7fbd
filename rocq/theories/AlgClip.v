(** * AlgClip: lemmas on selection, means, variances and medians *)
From Coq Require Import Reals ZArith List Bool Arith Lia Lra Sorted Permutation.
From Verif Require Import PyBase AlgModel.
Import ListNotations.
Open Scope R_scope.

Lemma select_filter d : forall m, select d m = map fst (filter snd (combine d m)).
Proof. induction d as [|x d IH]; intros [|b m]; cbn; auto. destruct b; cbn; now rewrite IH. Qed.
Lemma select_all d : select d (map (fun _ => true) d) = d.
Proof. induction d as [|x d IH]; cbn; [auto|now rewrite IH]. Qed.
Lemma select_In d : forall m x, In x (select d m) -> In x d.
Proof. induction d as [|y d IH]; intros [|b m] x; cbn; try tauto. destruct b; cbn; intros; firstorder. Qed.
Lemma select_map d (p : R -> bool) : select d (map p d) = filter p d.
Proof. induction d as [|x d IH]; cbn; [auto|]. destruct (p x); now rewrite IH. Qed.
Lemma select_count d : forall m, length m = length d -> length (select d m) = count m.
Proof. unfold count. induction d as [|x d IH]; intros [|b m]; cbn; intros; try lia. destruct b; cbn; rewrite IH; lia. Qed.
Lemma select_fmap (f : R -> R) d : forall m, select (map f d) m = map f (select d m).
Proof. induction d as [|x d IH]; intros [|b m]; cbn; auto. destruct b; cbn; now rewrite IH. Qed.
Lemma clip1_length vf cen sig d m : length (clip1 vf cen sig d m) = length d.
Proof. apply map_length. Qed.
Lemma clipn_length vf cen sig d n : forall m, length m = length d -> length (clipn vf cen sig d n m) = length d.
Proof. induction n as [|n IH]; intros m H; cbn; [auto|]. apply IH, clip1_length. Qed.
Lemma clipn_S vf cen sig d n : forall m, clipn vf cen sig d (S n) m = clip1 vf cen sig d (clipn vf cen sig d n m).
Proof. induction n as [|n IH]; intros m; [reflexivity|]. cbn [clipn] in *. now rewrite IH. Qed.

(** ** sums *)
Lemma rsum_app a b : rsum (a ++ b) = rsum a + rsum b.
Proof. unfold rsum. induction a as [|x a IH]; cbn [app fold_right]; [ring|]. rewrite IH. ring. Qed.
Lemma rsum_perm a b : Permutation a b -> rsum a = rsum b.
Proof. unfold rsum. induction 1; cbn; lra. Qed.
Lemma rsum_affine a b l : rsum (map (fun x => a * x + b) l) = a * rsum l + b * rlen l.
Proof. unfold rlen, rsum. induction l as [|x l IH]; [cbn; ring|]. cbn [map fold_right]. rewrite IH. cbn [length]. rewrite S_INR. ring. Qed.
Lemma rsum_scale a l : rsum (map (fun x => a * x) l) = a * rsum l.
Proof. unfold rsum. induction l as [|x l IH]; cbn in *; [ring|rewrite IH; ring]. Qed.
Lemma rsum_ge l (c : R) (f : R -> R) : (forall x, In x l -> c <= f x) -> rlen l * c <= rsum (map f l).
Proof.
  unfold rlen. induction l as [|x l IH]; intros H; [cbn; lra|]. cbn [length map]. rewrite S_INR. unfold rsum in *; cbn [fold_right]. pose proof (H x (or_introl eq_refl)). specialize (IH (fun y Hy => H y (or_intror Hy))). lra.
Qed.
Lemma rsum_nonneg l (f : R -> R) : (forall x, In x l -> 0 <= f x) -> 0 <= rsum (map f l).
Proof. intros H. pose proof (rsum_ge l 0 f H). lra. Qed.
Lemma rlen_pos l : l <> [] -> 0 < rlen l.
Proof. intros H. unfold rlen. apply lt_0_INR. destruct l; [congruence|cbn; lia]. Qed.
Lemma rlen_map (f : R -> R) l : rlen (map f l) = rlen l. Proof. unfold rlen. now rewrite map_length. Qed.
Lemma rlen_perm a b : Permutation a b -> rlen a = rlen b. Proof. intros H. unfold rlen. now rewrite (Permutation_length H). Qed.

(** ** mean and variance *)
Lemma mean_perm a b : Permutation a b -> mean a = mean b.
Proof.
  intros H. unfold mean. destruct a as [|x a], b as [|y b]; auto; try (apply Permutation_length in H; discriminate).
  now rewrite (rsum_perm _ _ H), (rlen_perm _ _ H).
Qed.
Lemma mean_some l : l <> [] -> mean l = Some (rsum l / rlen l). Proof. destruct l; [congruence|reflexivity]. Qed.
Lemma mean_affine a b l : mean (map (fun x => a * x + b) l) = option_map (fun x => a * x + b) (mean l).
Proof.
  destruct l as [|x l]; [reflexivity|]. rewrite !mean_some by discriminate. cbn [option_map]. f_equal. rewrite rsum_affine, rlen_map. 
  pose proof (rlen_pos (x :: l) ltac:(discriminate)). field. lra.
Qed.
Lemma var_perm a b : Permutation a b -> var a = var b.
Proof.
  intros H. unfold var. rewrite (mean_perm _ _ H). destruct (mean b) as [m|]; [|auto]. rewrite (rlen_perm _ _ H).
  now rewrite (rsum_perm (map (fun x => (x - m) * (x - m)) a) (map (fun x => (x - m) * (x - m)) b)) by now apply Permutation_map.
Qed.
Lemma var_affine a b l : var (map (fun x => a * x + b) l) = option_map (fun v => a * a * v) (var l).
Proof.
  unfold var. rewrite mean_affine. destruct (mean l) as [m|] eqn:E; [|reflexivity]. cbn [option_map]. f_equal. rewrite map_map, rlen_map.
  rewrite (map_ext _ (fun x => (a * a) * ((x - m) * (x - m)))) by (intros; ring). rewrite <- (map_map (fun x => (x - m) * (x - m)) (fun y => a * a * y)), rsum_scale.
  assert (0 < rlen l) by (apply rlen_pos; intros ->; discriminate). field. lra.
Qed.
Lemma var_mean l : l <> [] -> exists m v, mean l = Some m /\ var l = Some v /\ v * rlen l = rsum (map (fun x => (x - m) * (x - m)) l) /\ 0 <= v.
Proof.
  intros H. unfold var. rewrite mean_some by auto. do 2 eexists. split; [reflexivity|]. split; [reflexivity|]. pose proof (rlen_pos l H). split; [field; lra|].
  apply Rmult_le_pos; [apply rsum_nonneg; intros; apply Rle_0_sqr|left; now apply Rinv_0_lt_compat].
Qed.

(** ** sorting *)
Lemma insort_perm x l : Permutation (x :: l) (insort x l).
Proof. induction l as [|y l IH]; cbn; [auto|]. destruct (Rle_dec x y); [auto|]. rewrite perm_swap. now constructor. Qed.
Lemma sort_perm l : Permutation l (sort l).
Proof. induction l as [|x l IH]; cbn; [auto|]. rewrite <- insort_perm. now constructor. Qed.
Lemma insort_sorted x l : StronglySorted Rle l -> StronglySorted Rle (insort x l).
Proof.
  induction 1 as [|y l Hl IH Hy]; cbn; [repeat constructor|]. destruct (Rle_dec x y) as [L|L].
  - constructor; [now constructor|]. constructor; [auto|]. eapply Forall_impl; [|exact Hy]. cbn. intros; lra.
  - constructor; [auto|]. rewrite Forall_forall in *. intros z Hz. apply (Permutation_in _ (Permutation_sym (insort_perm x l))) in Hz. destruct Hz as [<-|Hz]; [lra|auto].
Qed.
Lemma sort_sorted l : StronglySorted Rle (sort l).
Proof. induction l as [|x l IH]; cbn; [constructor|now apply insort_sorted]. Qed.
Lemma sorted_unique a : forall b, StronglySorted Rle a -> StronglySorted Rle b -> Permutation a b -> a = b.
Proof.
  induction a as [|x a IH]; intros b Ha Hb P; [symmetry; now apply Permutation_nil|]. destruct b as [|y b]; [symmetry in P; apply Permutation_nil in P; discriminate|].
  inversion Ha as [|? ? Ha1 Ha2]; subst. inversion Hb as [|? ? Hb1 Hb2]; subst. rewrite Forall_forall in *.
  assert (x = y) as ->.
  { assert (In x (y :: b)) as [->|I1] by (eapply Permutation_in; eauto; left; auto); [auto|]. assert (In y (x :: a)) as [->|I2] by (eapply Permutation_in; [symmetry; eauto|left; auto]); [auto|].
    apply Hb2 in I1. apply Ha2 in I2. lra. }
  f_equal. apply IH; auto. eapply Permutation_cons_inv; eauto.
Qed.
Lemma sort_eq l s : Permutation l s -> StronglySorted Rle s -> sort l = s.
Proof. intros P S. apply sorted_unique; auto; [apply sort_sorted|]. rewrite <- sort_perm. exact P. Qed.
Lemma sort_length l : length (sort l) = length l. Proof. symmetry. apply Permutation_length, sort_perm. Qed.
Lemma ss_app a b : StronglySorted Rle a -> StronglySorted Rle b -> (forall x y, In x a -> In y b -> x <= y) -> StronglySorted Rle (a ++ b).
Proof.
  induction 1 as [|x a Ha IH Hx]; intros Hb H; cbn; [auto|]. constructor; [apply IH; auto; intros; apply H; cbn; auto|].
  rewrite Forall_forall in *. intros z Hz. apply in_app_iff in Hz. destruct Hz; [auto|apply H; cbn; auto].
Qed.
Lemma ss_nth l i j : StronglySorted Rle l -> (i <= j < length l)%nat -> nth i l 0 <= nth j l 0.
Proof.
  intros H. revert i j. induction H as [|x l Hl IH Hx]; intros i j; cbn; [lia|]. rewrite Forall_forall in Hx. destruct i as [|i], j as [|j]; intros L; try lia; try lra.
  - apply Hx, nth_In. lia.
  - apply IH. lia.
Qed.
Lemma sort_affine_pos a b l : 0 <= a -> sort (map (fun x => a * x + b) l) = map (fun x => a * x + b) (sort l).
Proof.
  intros Ha. apply sort_eq; [apply Permutation_map, sort_perm|]. pose proof (sort_sorted l) as S. induction S as [|x s S IH Hx]; cbn; [constructor|]. constructor; [auto|].
  rewrite Forall_forall in *. intros y Hy. apply in_map_iff in Hy. destruct Hy as (z & <- & Hz). apply Hx in Hz. nra.
Qed.
Lemma sort_affine_neg a b l : a <= 0 -> sort (map (fun x => a * x + b) l) = rev (map (fun x => a * x + b) (sort l)).
Proof.
  intros Ha. apply sort_eq; [rewrite <- Permutation_rev; apply Permutation_map, sort_perm|]. pose proof (sort_sorted l) as S. induction S as [|x s S IH Hx]; cbn; [constructor|].
  apply ss_app; [auto|repeat constructor|]. intros u v Hu [<-|[]]. apply in_rev, in_map_iff in Hu. destruct Hu as (z & <- & Hz). rewrite Forall_forall in Hx. apply Hx in Hz. nra.
Qed.
Lemma median_some l : l <> [] -> median l = Some (if Nat.odd (length l) then nth (length l / 2) (sort l) 0 else (nth (length l / 2 - 1) (sort l) 0 + nth (length l / 2) (sort l) 0) / 2).
Proof. destruct l; [congruence|reflexivity]. Qed.
Lemma median_perm a b : Permutation a b -> median a = median b.
Proof.
  intros P. destruct a as [|x a]; [apply Permutation_nil in P; now subst|]. destruct b as [|y b]; [symmetry in P; apply Permutation_nil in P; discriminate|].
  rewrite !median_some by discriminate. rewrite (Permutation_length P). assert (sort (x :: a) = sort (y :: b)) as ->; [|reflexivity].
  apply sort_eq; [|apply sort_sorted]. rewrite <- sort_perm. exact P.
Qed.
Lemma odd_half n : Nat.odd n = true -> (n = 2 * (n / 2) + 1)%nat.
Proof. intros H. apply Nat.odd_spec in H. destruct H as (k & ->). replace (2 * k + 1)%nat with (1 + k * 2)%nat by lia. rewrite Nat.div_add by lia. cbn. lia. Qed.
Lemma even_half n : Nat.odd n = false -> (n = 2 * (n / 2))%nat.
Proof. intros H. rewrite <- Nat.negb_even in H. apply negb_false_iff, Nat.even_spec in H. destruct H as (k & ->). rewrite (Nat.mul_comm 2 k), Nat.div_mul by lia. lia. Qed.
Lemma nth_rev_map (f : R -> R) s k : (k < length s)%nat -> nth k (rev (map f s)) 0 = f (nth (length s - 1 - k) s 0).
Proof.
  intros H. rewrite rev_nth by (rewrite map_length; lia). rewrite map_length. rewrite (nth_indep _ 0 (f 0)) by (rewrite map_length; lia). rewrite map_nth. do 2 f_equal. lia.
Qed.
Lemma nth_map0 (f : R -> R) s k : (k < length s)%nat -> nth k (map f s) 0 = f (nth k s 0).
Proof. intros H. rewrite (nth_indep _ 0 (f 0)) by (rewrite map_length; lia). apply map_nth. Qed.
Lemma median_affine a b l : median (map (fun x => a * x + b) l) = option_map (fun x => a * x + b) (median l).
Proof.
  destruct l as [|x0 l0]; [reflexivity|]. set (l := x0 :: l0). assert (l <> []) by discriminate. rewrite !median_some by (auto; discriminate).
  rewrite map_length. cbn [option_map]. f_equal. pose proof (sort_length l) as Sl. assert (length l > 0)%nat by (cbn; lia). clearbody l.
  destruct (Nat.odd (length l)) eqn:O; [apply odd_half in O|apply even_half in O]; set (h := (length l / 2)%nat) in *; clearbody h;
    destruct (Rle_dec 0 a) as [Ha|Ha]; [rewrite sort_affine_pos by auto|rewrite sort_affine_neg by lra|rewrite sort_affine_pos by auto|rewrite sort_affine_neg by lra];
    rewrite ?nth_rev_map, ?nth_map0 by lia; rewrite ?Sl.
  - reflexivity.
  - do 2 f_equal. f_equal. lia.
  - field.
  - replace (length l - 1 - (h - 1))%nat with h by lia. replace (length l - 1 - h)%nat with (h - 1)%nat by lia. field.
Qed.
Lemma comb_affine p q a b l : p - q = 1 -> comb p q (map (fun x => a * x + b) l) = option_map (fun x => a * x + b) (comb p q l).
Proof.
  intros H. unfold comb. rewrite median_affine, mean_affine. destruct (median l) as [u|]; [|reflexivity]. destruct (mean l) as [v|]; [|reflexivity]. cbn. f_equal.
  replace p with (1 + q) by lra. ring.
Qed.

Lemma nth_firstn_lt (l : list R) h k : (k < h)%nat -> nth k (firstn h l) 0 = nth k l 0.
Proof. revert h k. induction l as [|x l IH]; intros [|h] [|k] H; cbn; try lia; auto. apply IH. lia. Qed.
Lemma nth_skipn_plus (l : list R) h k : nth k (skipn h l) 0 = nth (h + k) l 0.
Proof. revert l. induction h as [|h IH]; intros [|x l]; cbn; auto. now destruct k. Qed.
(** ** some datum is within one standard deviation of the mean and of the median *)
Lemma exists_small (l : list R) (f : R -> R) (c : R) : l <> [] -> rsum (map f l) <= rlen l * c -> exists x, In x l /\ f x <= c.
Proof.
  intros Hn H. destruct (Exists_dec (fun x => f x <= c) l (fun x => Rle_dec (f x) c)) as [E|E]; [now apply Exists_exists in E|]. exfalso.
  rewrite <- Forall_Exists_neg in E. rewrite Forall_forall in E. assert (forall x, In x l -> c < f x) as E' by (intros x Hx; apply E in Hx; lra). clear E.
  assert (rlen l * c < rsum (map f l)); [|lra]. clear H. destruct l as [|x l]; [congruence|]. unfold rsum in *; cbn [map fold_right]. unfold rlen. cbn [length]. rewrite S_INR.
  pose proof (rsum_ge l c f (fun y Hy => Rlt_le _ _ (E' y (or_intror Hy)))) as G. unfold rlen, rsum in G. pose proof (E' x (or_introl eq_refl)). lra.
Qed.
Lemma near_mean l m v : l <> [] -> mean l = Some m -> var l = Some v -> exists x, In x l /\ (x - m) * (x - m) <= v.
Proof.
  intros Hn Em Ev. destruct (var_mean l Hn) as (m' & v' & Em' & Ev' & Hs & _). assert (m' = m) as -> by congruence. assert (v' = v) as -> by congruence.
  apply exists_small; auto. lra.
Qed.
Lemma pair_sum (c m1 m2 : R) : m1 <= m2 -> forall A B, length A = length B -> (forall x, In x A -> x <= m1) -> (forall y, In y B -> m2 <= y) ->
  rlen (A ++ B) * ((m2 - m1) / 2 * ((m2 - m1) / 2)) <= rsum (map (fun x => (x - c) * (x - c)) (A ++ B)).
Proof.
  intros L A B HL HA HB. rewrite map_app, rsum_app. unfold rlen. rewrite app_length, plus_INR. revert B HL HB. induction A as [|x A IH]; intros [|y B] HL HB; cbn [length] in HL; try lia.
  - cbn. lra.
  - specialize (IH (fun z Hz => HA z (or_intror Hz)) B ltac:(lia) (fun z Hz => HB z (or_intror Hz))). cbn [length map]. rewrite !S_INR. unfold rsum in *; cbn [fold_right].
    pose proof (HA x (or_introl eq_refl)). pose proof (HB y (or_introl eq_refl)).
    assert (2 * ((m2 - m1) / 2 * ((m2 - m1) / 2)) <= (x - c) * (x - c) + (y - c) * (y - c)); [|lra].
    assert ((m2 - m1) * (m2 - m1) <= (y - x) * (y - x)) by (apply Rmult_le_compat; lra). pose proof (Rle_0_sqr (x - c + (y - c))). unfold Rsqr in *. lra.
Qed.
Lemma near_median l m v : l <> [] -> median l = Some m -> var l = Some v -> exists x, In x l /\ (x - m) * (x - m) <= v.
Proof.
  intros Hn Em Ev. destruct (var_mean l Hn) as (mu & v' & Emu & Ev' & Hs & Hv). assert (v' = v) as -> by congruence. rewrite median_some in Em by auto. match type of Em with Some ?q = _ => assert (q = m) as Em1 by congruence end. clear Em. rename Em1 into Em.
  pose proof (sort_length l) as Sl. assert (length l > 0)%nat as Hl by (destruct l; [congruence|cbn; lia]).
  assert (forall k, (k < length l)%nat -> In (nth k (sort l) 0) l) as HI. { intros k Hk. apply (Permutation_in _ (Permutation_sym (sort_perm l))), nth_In. lia. }
  destruct (Nat.odd (length l)) eqn:O; [apply odd_half in O|apply even_half in O]; set (h := (length l / 2)%nat) in *; clearbody h.
  - exists m. split; [rewrite <- Em; apply HI; lia|]. unfold Rminus. rewrite Rplus_opp_r. lra.
  - set (m1 := nth (h - 1) (sort l) 0) in *. set (m2 := nth h (sort l) 0) in *. exists m1. split; [apply HI; lia|].
    assert (m1 <= m2) as L by (apply ss_nth; [apply sort_sorted|lia]).
    pose proof (pair_sum mu m1 m2 L (firstn h (sort l)) (skipn h (sort l))) as P. rewrite firstn_length, skipn_length, Sl, firstn_skipn in P. specialize (P ltac:(lia)).
    assert (rlen l * ((m2 - m1) / 2 * ((m2 - m1) / 2)) <= rsum (map (fun x => (x - mu) * (x - mu)) l)) as Q.
    { rewrite (rlen_perm _ _ (sort_perm l)), (rsum_perm _ _ (Permutation_map _ (sort_perm l))). apply P.
      - intros x Hx. apply (In_nth _ _ 0) in Hx. destruct Hx as (k & Hk & <-). rewrite firstn_length in Hk. rewrite nth_firstn_lt by lia. apply ss_nth; [apply sort_sorted|lia].
      - intros y Hy. apply (In_nth _ _ 0) in Hy. destruct Hy as (k & Hk & <-). rewrite skipn_length in Hk. rewrite nth_skipn_plus. apply ss_nth; [apply sort_sorted|lia]. }
    rewrite <- Hs in Q. pose proof (rlen_pos l Hn). assert ((m2 - m1) / 2 * ((m2 - m1) / 2) <= v) by (apply (Rmult_le_reg_l (rlen l)); lra).
    rewrite <- Em. replace (m1 - (m1 + m2) / 2) with (- ((m2 - m1) / 2)) by field. rewrite Rmult_opp_opp. assumption.
Qed.
