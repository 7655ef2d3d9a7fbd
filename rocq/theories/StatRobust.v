(** * StatRobust: robust statistics (C93) *)
From Coq Require Import List Bool Arith Reals ZArith Lia Lra Permutation Sorted.
From Verif Require Import PyBase AlgModel AlgClip CcdCombine CcdReject StatModel.
Import ListNotations.
Open Scope R_scope.

(** ** Percentiles *)
Definition lin (s : list R) (k : nat) : R :=
  if (k mod 100 =? 0)%nat then nth (k / 100) s 0 else nth (k / 100) s 0 + (nth (k / 100 + 1) s 0 - nth (k / 100) s 0) * (INR (k mod 100) / 100).
Lemma score_lin x p : x <> [] -> score x p = Some (lin (sort x) (p * (List.length x - 1))).
Proof. destruct x; [congruence|reflexivity]. Qed.
Lemma frac k : 0 <= INR (k mod 100) / 100 < 1.
Proof. pose proof (Nat.mod_upper_bound k 100 ltac:(lia)) as H. apply lt_INR in H. pose proof (pos_INR (k mod 100)). change (INR 100) with (IZR 100) in H || replace (INR 100) with 100 in H by (rewrite INR_IZR_INZ; reflexivity). lra. Qed.
Lemma index_bound p n : (p <= 100)%nat -> let k := (p * n)%nat in (k / 100 <= n)%nat /\ (k mod 100 <> 0 -> k / 100 < n)%nat.
Proof.
  intros P k. assert (K : (k <= 100 * n)%nat) by (unfold k; nia). pose proof (Nat.div_mod k 100 ltac:(lia)). split; [|intros]; nia.
Qed.
Lemma score_perm x y p : Permutation x y -> score x p = score y p.
Proof.
  intros H. destruct x as [|a x]; [apply Permutation_nil in H; now subst|]. destruct y as [|b y]; [symmetry in H; apply Permutation_nil in H; discriminate|].
  rewrite !score_lin by discriminate. rewrite (Permutation_length H). f_equal. f_equal. apply sort_eq; [rewrite H; apply sort_perm|apply sort_sorted].
Qed.
Lemma lin_map f s k : (forall a b t, f (a + (b - a) * t) = f a + (f b - f a) * t) -> (k / 100 < List.length s)%nat -> (k mod 100 <> 0 -> k / 100 + 1 < List.length s)%nat -> lin (map f s) k = f (lin s k).
Proof.
  intros F B B'. unfold lin. destruct (Nat.eqb_spec (k mod 100) 0) as [E|E]; [now rewrite nth_map0|]. rewrite !nth_map0 by (auto; lia). symmetry. apply F.
Qed.
Lemma affine_lin a b : forall x y t, a * (x + (y - x) * t) + b = a * x + b + (a * y + b - (a * x + b)) * t.
Proof. intros. ring. Qed.
Lemma score_affine a b x p : 0 <= a -> (p <= 100)%nat -> score (map (fun v => a * v + b) x) p = option_map (fun v => a * v + b) (score x p).
Proof.
  intros A P. destruct x as [|v x]; [reflexivity|]. set (l := v :: x). assert (N : l <> []) by discriminate. clearbody l.
  rewrite !score_lin by (destruct l; [congruence|discriminate]). cbn [option_map]. f_equal. rewrite map_length, sort_affine_pos by exact A.
  destruct (index_bound p (List.length l - 1) P) as (B1 & B2). assert (0 < List.length l)%nat by (destruct l; [congruence|cbn; lia]).
  rewrite lin_map; [reflexivity|apply affine_lin|rewrite sort_length; lia|rewrite sort_length; intros E; specialize (B2 E); lia].
Qed.
Lemma lin_rev s k p : (p <= 100)%nat -> (0 < List.length s)%nat -> k = (p * (List.length s - 1))%nat -> lin (rev s) k = lin s ((100 - p) * (List.length s - 1)).
Proof.
  intros P N ->. set (n := (List.length s - 1)%nat) in *. assert (E : ((100 - p) * n + p * n = 100 * n)%nat) by nia.
  set (k := (p * n)%nat) in *. set (k' := ((100 - p) * n)%nat) in *. pose proof (Nat.div_mod k 100 ltac:(lia)) as D. pose proof (Nat.div_mod k' 100 ltac:(lia)) as D'.
  pose proof (Nat.mod_upper_bound k 100 ltac:(lia)) as M. pose proof (Nat.mod_upper_bound k' 100 ltac:(lia)) as M'. unfold lin.
  destruct (Nat.eqb_spec (k mod 100) 0) as [Z|Z], (Nat.eqb_spec (k' mod 100) 0) as [Z'|Z'].
  - rewrite rev_nth by lia. f_equal. lia.
  - exfalso. nia.
  - exfalso. nia.
  - assert (Q : (k mod 100 + k' mod 100 = 100)%nat) by nia. assert (Q2 : (k / 100 + k' / 100 + 1 = n)%nat) by nia.
    rewrite !rev_nth by lia. replace (List.length s - S (k / 100))%nat with (k' / 100 + 1)%nat by lia. replace (List.length s - S (k / 100 + 1))%nat with (k' / 100)%nat by lia.
    assert (Q3 : INR (k mod 100) = 100 - INR (k' mod 100)). { apply (f_equal INR) in Q. rewrite plus_INR in Q. replace (INR 100) with 100 in Q by (rewrite INR_IZR_INZ; reflexivity). lra. }
    rewrite Q3. field.
Qed.
Lemma score_reflect a b x p : a <= 0 -> (p <= 100)%nat -> score (map (fun v => a * v + b) x) p = option_map (fun v => a * v + b) (score x (100 - p)).
Proof.
  intros A P. destruct x as [|v x]; [reflexivity|]. set (l := v :: x). assert (N : l <> []) by discriminate. clearbody l.
  rewrite !score_lin by (destruct l; [congruence|discriminate]). cbn [option_map]. f_equal. rewrite map_length, sort_affine_neg by exact A.
  assert (0 < List.length l)%nat by (destruct l; [congruence|cbn; lia]).
  rewrite (lin_rev _ _ p P); [|rewrite map_length, sort_length; lia|rewrite map_length, sort_length; reflexivity]. rewrite map_length, sort_length.
  destruct (index_bound (100 - p) (List.length l - 1) ltac:(lia)) as (B1 & B2).
  rewrite lin_map; [reflexivity|apply affine_lin|rewrite sort_length; lia|rewrite sort_length; intros E; specialize (B2 E); lia].
Qed.
(** the value at a position between two entries of a sorted list *)
Lemma lin_between s k (u v : R) : (k / 100 < List.length s)%nat -> (k mod 100 <> 0 -> k / 100 + 1 < List.length s)%nat ->
  u <= nth (k / 100) s 0 <= v -> ((k mod 100 <> 0)%nat -> u <= nth (k / 100 + 1) s 0 <= v) -> u <= lin s k <= v.
Proof.
  intros B B' H H'. unfold lin. destruct (Nat.eqb_spec (k mod 100) 0) as [E|E]; [exact H|]. specialize (H' E). pose proof (frac k) as F. set (t := INR (k mod 100) / 100) in *. nra.
Qed.
Lemma lin_mono s j k : StronglySorted Rle s -> (j <= k)%nat -> (k / 100 < List.length s)%nat -> (k mod 100 <> 0 -> k / 100 + 1 < List.length s)%nat -> lin s j <= lin s k.
Proof.
  intros S J B B'. pose proof (Nat.div_mod k 100 ltac:(lia)) as D. pose proof (Nat.div_mod j 100 ltac:(lia)) as D'.
  pose proof (Nat.mod_upper_bound k 100 ltac:(lia)) as M. pose proof (Nat.mod_upper_bound j 100 ltac:(lia)) as M'.
  destruct (Nat.eq_dec (j / 100) (k / 100)) as [Q|Q].
  - assert (W : (j mod 100 <= k mod 100)%nat) by lia. unfold lin. rewrite Q. apply le_INR in W. pose proof (frac j) as Fj. pose proof (frac k) as Fk.
    destruct (Nat.eqb_spec (j mod 100) 0) as [Z|Z], (Nat.eqb_spec (k mod 100) 0) as [Z'|Z'].
    + lra.
    + pose proof (ss_nth s (k / 100) (k / 100 + 1) S ltac:(specialize (B' Z'); lia)). nra.
    + exfalso. lia.
    + pose proof (ss_nth s (k / 100) (k / 100 + 1) S ltac:(specialize (B' Z'); lia)). assert (INR (j mod 100) / 100 <= INR (k mod 100) / 100) by lra. nra.
  - assert (W : (j / 100 + 1 <= k / 100)%nat) by nia.
    assert (A : lin s j <= nth (k / 100) s 0).
    { apply (lin_between s j (nth (j / 100) s 0)); try lia; [split; [lra|apply ss_nth; [exact S|lia]]|]. intros _. split; apply ss_nth; auto; lia. }
    assert (C : nth (k / 100) s 0 <= lin s k).
    { apply (lin_between s k (nth (k / 100) s 0) (nth (List.length s - 1) s 0)); try assumption; [split; [lra|apply ss_nth; [exact S|lia]]|]. intros E. specialize (B' E). split; apply ss_nth; auto; lia. }
    lra.
Qed.
Lemma score_order x p q a b : (p <= q <= 100)%nat -> score x p = Some a -> score x q = Some b -> a <= b.
Proof.
  intros PQ A B. destruct x as [|v x]; [discriminate|]. set (l := v :: x) in *. assert (N : l <> []) by discriminate. clearbody l.
  rewrite score_lin in A, B by exact N. injection A as <-. injection B as <-. assert (0 < List.length l)%nat by (destruct l; [congruence|cbn; lia]).
  destruct (index_bound q (List.length l - 1) ltac:(lia)) as (B1 & B2).
  apply lin_mono; [apply sort_sorted|nia|rewrite sort_length; lia|rewrite sort_length; intros E; specialize (B2 E); lia].
Qed.
(** positions of a sorted list that must lie where most of the values lie *)
Lemma filter_length_perm (f : R -> bool) a b : Permutation a b -> List.length (filter f a) = List.length (filter f b).
Proof. intros H. apply Permutation_length. now apply filter_perm. Qed.
Lemma position_inside l a b k i : (List.length (filter (inside a b) l) + k = List.length l)%nat -> (k <= i)%nat -> (i + k < List.length l)%nat -> a <= nth i (sort l) 0 <= b.
Proof.
  intros K L U. rewrite (filter_length_perm _ _ _ (sort_perm l)) in K. rewrite <- (sort_length l) in K, U. pose proof (sort_sorted l) as S.
  split; apply Rnot_lt_le; intros H.
  - pose proof (low_side a b _ i S ltac:(lia) H). lia.
  - pose proof (high_side a b _ i S ltac:(lia) H). lia.
Qed.

(** ** C93 *)
Section ei.
Context (ei : R) (ei_pos : 0 < ei).
Lemma iqr_cases x s v : interquartile_range ei x s = Some v -> x <> [] /\ exists a b, score x 75 = Some a /\ score x 25 = Some b /\ b <= a /\ v = (if s then (a - b) / (sqrt 8 * ei) else a - b).
Proof.
  unfold interquartile_range. destruct (score x 75) as [a|] eqn:A; [|discriminate]. destruct (score x 25) as [b|] eqn:B; [|discriminate]. intros [= <-].
  split; [intros ->; discriminate|]. exists a, b. repeat split; auto. apply (score_order x 25 75); auto. lia.
Qed.
Lemma norm_pos q : 0 < q -> 0 < / (sqrt q * ei).
Proof. intros Q. apply Rinv_0_lt_compat, Rmult_lt_0_compat; [now apply sqrt_lt_R0|exact ei_pos]. Qed.
End ei.

(** The interquartile range does not depend on the order of the values, is not negative and follows changes of zero point and unit. *)
Theorem C93_iqr : forall ei x scale v, 0 < ei -> interquartile_range ei x scale = Some v ->
  0 <= v /\ (forall y, Permutation x y -> interquartile_range ei y scale = Some v) /\
  (forall a b, interquartile_range ei (map (fun t => a * t + b) x) scale = Some (Rabs a * v)).
Proof.
  intros ei x scale v E H. pose proof (iqr_cases ei x scale v H) as (N & a & b & A & B & L & V). split; [|split].
  - subst v. pose proof (norm_pos ei E 8 ltac:(lra)). destruct scale; [|lra]. unfold Rdiv. apply Rmult_le_pos; lra.
  - intros y P. unfold interquartile_range in *. now rewrite <- !(score_perm x y _ P).
  - intros c d. unfold interquartile_range. destruct (Rle_dec 0 c) as [C|C].
    + rewrite !score_affine by (lra || lia). rewrite A, B. cbn [option_map]. rewrite (Rabs_pos_eq c C). subst v. destruct scale; f_equal; [unfold Rdiv|]; ring.
    + rewrite !score_reflect by (lra || lia). replace (100 - 75)%nat with 25%nat by lia. replace (100 - 25)%nat with 75%nat by lia. rewrite A, B. cbn [option_map]. rewrite (Rabs_left c) by lra. subst v. destruct scale; f_equal; [unfold Rdiv|]; ring.
Qed.
(** If at most a quarter of the intervals' worth of values (4 k <= n - 1) lie outside [u,w], the interquartile range is at most w - u:
    so many values cannot spoil it, whatever they are. *)
Theorem C93_iqr_robust : forall ei x u w v k, interquartile_range ei x false = Some v ->
  (List.length (filter (inside u w) x) + k = List.length x)%nat -> (4 * k <= List.length x - 1)%nat -> v <= w - u.
Proof.
  intros ei x u w v k H K Q. destruct (iqr_cases ei x false v H) as (N & a & b & A & B & _ & ->). 
  assert (L : (0 < List.length x)%nat) by (destruct x; [congruence|cbn; lia]).
  assert (S : forall p, (25 <= p <= 75)%nat -> u <= lin (sort x) (p * (List.length x - 1)) <= w).
  { intros p P. destruct (index_bound p (List.length x - 1) ltac:(lia)) as (B1 & B2). set (j := (p * (List.length x - 1))%nat) in *.
    pose proof (Nat.div_mod j 100 ltac:(lia)) as D. pose proof (Nat.mod_upper_bound j 100 ltac:(lia)) as M.
    assert (J1 : (k <= j / 100)%nat) by (apply Nat.div_le_lower_bound; [lia|]; unfold j; pose proof (Nat.mul_le_mono_r 25 p (List.length x - 1) ltac:(lia)); lia).
    assert (J2 : (j <= 75 * (List.length x - 1))%nat) by (apply Nat.mul_le_mono_r; lia).
    apply lin_between; [rewrite sort_length; lia|rewrite sort_length; intros E; specialize (B2 E); lia| |].
    - apply (position_inside x u w k); auto. lia.
    - intros E. apply (position_inside x u w k); auto; [lia|]. lia. }
  rewrite score_lin in A, B by exact N. apply some_inj in A, B. rewrite <- A, <- B. pose proof (S 75%nat ltac:(lia)). pose proof (S 25%nat ltac:(lia)). lra.
Qed.

(** ** Median absolute deviation *)
Lemma mad_some x : x <> [] -> exists m r, median x = Some m /\ mad x = Some r /\ median (map (fun v => Rabs (v - m)) x) = Some r.
Proof.
  intros N. unfold mad. destruct (median x) as [m|] eqn:M; [|rewrite median_some in M by exact N; discriminate].
  destruct (median (map (fun v => Rabs (v - m)) x)) as [r|] eqn:Q; [eauto|]. rewrite median_some in Q; [discriminate|]. destruct x; [congruence|discriminate].
Qed.
Lemma map_ext_R (f g : R -> R) l : (forall x, f x = g x) -> map f l = map g l. Proof. intros H. apply map_ext. exact H. Qed.
Lemma mad_affine a b x : mad (map (fun v => a * v + b) x) = option_map (fun r => Rabs a * r) (mad x).
Proof.
  unfold mad. rewrite median_affine. destruct (median x) as [m|]; [|reflexivity]. cbn [option_map]. rewrite map_map.
  rewrite (map_ext_R _ (fun v => Rabs a * (Rabs (v - m)) + 0)); [|intros v; rewrite Rplus_0_r, <- Rabs_mult; f_equal; ring].
  rewrite <- (map_map (fun v => Rabs (v - m)) (fun t => Rabs a * t + 0)), median_affine. destruct (median _); [cbn; f_equal; ring|reflexivity].
Qed.
Lemma mad_perm x y : Permutation x y -> mad x = mad y.
Proof. intros P. unfold mad. rewrite (median_perm x y P). destruct (median y); [|reflexivity]. apply median_perm. now apply Permutation_map. Qed.
Lemma median_all x m u w : median x = Some m -> (forall v, In v x -> u <= v <= w) -> u <= m <= w.
Proof.
  intros M H. apply (median_majority x u w m); [|exact M].
  assert (E : filter (inside u w) x = x). { clear M. induction x as [|v x IH]; [reflexivity|]. cbn [filter]. rewrite (proj2 (inside_spec u w v)) by (apply H; now left). f_equal. apply IH. intros t T. apply H. now right. }
  rewrite E. destruct x; [discriminate|cbn; lia].
Qed.
Lemma mad_nonneg x r : mad x = Some r -> 0 <= r.
Proof.
  intros H. destruct x as [|v x]; [discriminate|]. destruct (mad_some (v :: x) ltac:(discriminate)) as (m & r' & M & R' & Q). rewrite H in R'. injection R' as <-.
  set (l := v :: x) in *. clearbody l. clear M.
  assert (exists c, forall t, In t (map (fun v => Rabs (v - m)) l) -> 0 <= t <= c) as (c & C).
  { clear. induction l as [|a l (c & C)]; [exists 0; intros t []|]. exists (Rmax c (Rabs (a - m))). pose proof (Rabs_pos (a - m)). pose proof (Rmax_l c (Rabs (a - m))). pose proof (Rmax_r c (Rabs (a - m))).
    intros t [<-|T]; [lra|]. specialize (C t T). lra. }
  pose proof (median_all _ _ 0 c Q C). lra.
Qed.
Theorem C93_mad : forall ei x scale cen v, 0 < ei -> median_absolute_deviation ei x scale cen = Some v ->
  0 <= v /\ (forall y, Permutation x y -> median_absolute_deviation ei y scale cen = Some v) /\
  (forall a b, median_absolute_deviation ei (map (fun t => a * t + b) x) scale cen = Some (Rabs a * v)).
Proof.
  intros ei x scale cen v E H. unfold median_absolute_deviation in *. destruct (mad x) as [r|] eqn:M; [|discriminate]. injection H as <-. split; [|split].
  - pose proof (mad_nonneg _ _ M). pose proof (norm_pos ei E 2 ltac:(lra)). destruct scale; [|assumption]. unfold Rdiv. apply Rmult_le_pos; lra.
  - intros y P. now rewrite <- (mad_perm x y P), M.
  - intros a b. rewrite mad_affine, M. cbn [option_map]. destruct scale; [f_equal; unfold Rdiv; ring|reflexivity].
Qed.
Lemma prefix_count s : forall (p : R -> bool) j, (j <= List.length s)%nat -> (forall i, (i < j)%nat -> p (nth i s 0) = true) -> (j <= List.length (filter p s))%nat.
Proof.
  intros p. induction s as [|a s IH]; intros j J H; [cbn in J; lia|]. destruct j as [|j]; [lia|]. cbn [filter]. pose proof (H 0%nat ltac:(lia)) as A. cbn [nth] in A. rewrite A. cbn [List.length].
  apply le_n_S. apply IH; [cbn in J; lia|]. intros i I'. exact (H (S i) ltac:(lia)).
Qed.
Lemma suffix_count s : forall (p : R -> bool) j, (j <= List.length s)%nat -> (forall i, (j <= i < List.length s)%nat -> p (nth i s 0) = true) -> (List.length s - j <= List.length (filter p s))%nat.
Proof.
  intros p j J H. rewrite (filter_length_perm p s (rev s) (Permutation_rev s)). apply prefix_count; [rewrite rev_length; lia|]. intros i I'. rewrite rev_nth by lia. apply H. lia.
Qed.
(** half of the values are within the deviation of the median, and half are at least that far away *)
Lemma median_half x m : median x = Some m -> (List.length x <= 2 * List.length (filter (fun v => if Rle_dec v m then true else false) x))%nat /\ (List.length x <= 2 * List.length (filter (fun v => if Rle_dec m v then true else false) x))%nat.
Proof.
  intros M. assert (N : x <> []) by (intros ->; discriminate).
  set (s := sort x). assert (S : StronglySorted Rle s) by apply sort_sorted. assert (L : List.length s = List.length x) by apply sort_length.
  rewrite !(filter_length_perm _ _ _ (sort_perm x)). fold s. rewrite median_some in M by exact N. fold s in M. apply some_inj in M. rewrite <- L in *.
  assert (P : (0 < List.length s)%nat) by (destruct x; [congruence|rewrite L; cbn; lia]). clearbody s. clear N.
  assert (C := prefix_count s). assert (C' := suffix_count s).
  set (h := (List.length s / 2)%nat) in *. destruct (Nat.odd (List.length s)) eqn:O.
  - apply odd_half in O. fold h in O. split.
    + enough (h + 1 <= List.length (filter (fun v => if Rle_dec v m then true else false) s))%nat by lia. apply C; [lia|]. intros i I'. destruct (Rle_dec (nth i s 0) m) as [|X]; [reflexivity|]. exfalso. apply X. rewrite <- M. apply ss_nth; auto; lia.
    + enough (List.length s - h <= List.length (filter (fun v => if Rle_dec m v then true else false) s))%nat by lia. apply C'; [lia|]. intros i I'. destruct (Rle_dec m (nth i s 0)) as [|X]; [reflexivity|]. exfalso. apply X. rewrite <- M. apply ss_nth; auto; lia.
  - apply even_half in O. fold h in O. assert (B : nth (h - 1) s 0 <= nth h s 0) by (apply ss_nth; auto; lia). split.
    + enough (h <= List.length (filter (fun v => if Rle_dec v m then true else false) s))%nat by lia. apply C; [lia|]. intros i I'. destruct (Rle_dec (nth i s 0) m) as [|X]; [reflexivity|]. exfalso. apply X.
      assert (nth i s 0 <= nth (h - 1) s 0) by (apply ss_nth; auto; lia). lra.
    + enough (List.length s - h <= List.length (filter (fun v => if Rle_dec m v then true else false) s))%nat by lia. apply C'; [lia|]. intros i I'. destruct (Rle_dec m (nth i s 0)) as [|X]; [reflexivity|]. exfalso. apply X.
      assert (nth h s 0 <= nth i s 0) by (apply ss_nth; auto; lia). lra.
Qed.

Theorem C93_mad_half : forall ei x cen m v, median x = Some m -> median_absolute_deviation ei x false cen = Some v ->
  (List.length x <= 2 * List.length (filter (inside (m - v) (m + v)) x))%nat /\
  (List.length x <= 2 * List.length (filter (fun t => if Rle_dec v (Rabs (t - m)) then true else false) x))%nat.
Proof.
  intros ei x cen m v M H. unfold median_absolute_deviation in H. destruct (mad x) as [r|] eqn:Q; [|discriminate]. apply some_inj in H. subst r.
  unfold mad in Q. rewrite M in Q. apply median_half in Q. rewrite map_length in Q.
  assert (FM : forall p, List.length (filter p (map (fun t => Rabs (t - m)) x)) = List.length (filter (fun t => p (Rabs (t - m))) x)).
  { intros p. clear. induction x as [|a x IH]; [reflexivity|]. cbn [map filter]. destruct (p (Rabs (a - m))); cbn [List.length]; now rewrite IH. }
  rewrite !FM in Q. destruct Q as (Q1 & Q2). split; [|exact Q2].
  erewrite filter_ext; [exact Q1|]. intros t. cbv beta. destruct (Rle_dec (Rabs (t - m)) v) as [A|A]; destruct (inside (m - v) (m + v) t) eqn:I'; try reflexivity; exfalso.
  - assert (X : m - v <= t <= m + v) by (unfold Rabs in A; destruct (Rcase_abs (t - m)); lra). apply inside_spec in X. congruence.
  - apply inside_spec in I'. apply A. apply Rabs_le. lra.
Qed.
(** whatever the other values are, if more than half lie in [u,w] the deviation is at most w - u *)
Theorem C93_mad_robust : forall ei x cen u w v, median_absolute_deviation ei x false cen = Some v ->
  (List.length x < 2 * List.length (filter (inside u w) x))%nat -> v <= w - u.
Proof.
  intros ei x cen u w v H L. unfold median_absolute_deviation in H. destruct (mad x) as [r|] eqn:Q; [|discriminate]. apply some_inj in H. subst r.
  unfold mad in Q. destruct (median x) as [m|] eqn:M; [|discriminate]. pose proof (median_majority x u w m L M) as B.
  enough (0 <= v <= w - u) by lra. apply (median_majority _ 0 (w - u) v) in Q; [exact Q|]. rewrite map_length.
  assert (FM : (List.length (filter (inside u w) x) <= List.length (filter (inside 0 (w - u)) (map (fun t => Rabs (t - m)) x)))%nat); [|lia].
  clear - B. induction x as [|a x IH]; [reflexivity|]. cbn [map filter]. destruct (inside u w a) eqn:I'.
  - apply inside_spec in I'. rewrite (proj2 (inside_spec 0 (w - u) (Rabs (a - m)))); [cbn [List.length]; lia|]. split; [apply Rabs_pos|apply Rabs_le; lra].
  - destruct (inside 0 (w - u) (Rabs (a - m))); cbn [List.length]; lia.
Qed.
(** the centre estimator is not used *)
Theorem C93_centre_refuted : forall ei x scale c1 c2, median_absolute_deviation ei x scale c1 = median_absolute_deviation ei x scale c2.
Proof. reflexivity. Qed.

(** ** Biweight *)
Lemma sq_nonneg u : 0 <= sq u. Proof. unfold sq. nra. Qed.
(** centres that follow the zero point and unit *)
Definition equivariant (cen : list R -> option R) : Prop := forall a b x, a <> 0 -> cen (map (fun t => a * t + b) x) = option_map (fun c => a * c + b) (cen x).
Definition symmetric (cen : list R -> option R) : Prop := forall x y, Permutation x y -> cen x = cen y.
Lemma median_equivariant : equivariant median /\ symmetric median.
Proof. split; [intros a b x _; apply median_affine|exact median_perm]. Qed.
Lemma pair_inj {A B} (a c : A) (b d : B) : Some (a, b) = Some (c, d) -> a = c /\ b = d.
Proof. now intros [= -> ->]. Qed.
Theorem C93_biweight : forall x scale cen b q, biweight x scale cen = Some (b, q) -> cen x = Some q /\
  (forall v, b = Some v -> 0 <= v) /\
  (symmetric cen -> forall y, Permutation x y -> biweight y scale cen = Some (b, q)) /\
  (equivariant cen -> forall a c, a <> 0 -> biweight (map (fun t => a * t + c) x) scale cen = Some (option_map (fun v => a * a * v) b, a * q + c)).
Proof.
  intros x scale cen b q H. unfold biweight in H. destruct (cen x) as [q'|] eqn:C; [|discriminate]. destruct (mad x) as [m|] eqn:M; [|discriminate]. apply pair_inj in H. destruct H as (Hb & Hq). subst q'.
  split; [reflexivity|]. split; [|split].
  - intros v Ev. subst b. destruct (Req_EM_T (scale * m) 0); [discriminate|]. destruct (Req_EM_T _ 0) as [|D]; [discriminate|]. apply some_inj in Ev. subst v.
    unfold Rdiv. apply Rmult_le_pos; [apply Rmult_le_pos; [apply pos_INR|]|left; apply Rinv_0_lt_compat; pose proof (sq_nonneg (rsum (map (fun v => (if Rle_dec (sq ((v - q) / (scale * m))) 1 then 1 else 0) * (1 - sq ((v - q) / (scale * m))) * (1 - 5 * sq ((v - q) / (scale * m)))) x))); lra].
    apply rsum_nonneg. intros t _. apply Rmult_le_pos; [apply Rmult_le_pos; [destruct (Rle_dec _ 1); lra|apply sq_nonneg]|]. 
    match goal with |- 0 <= ?u ^ 4 => replace (u ^ 4) with ((u * u) * (u * u)) by ring; exact (Rle_0_sqr (u * u)) end.
  - intros SY y P. unfold biweight. rewrite <- (SY x y P), C, <- (mad_perm x y P), M. rewrite <- Hb. f_equal. f_equal. destruct (Req_EM_T (scale * m) 0); [reflexivity|].
    cbv zeta. rewrite (rsum_perm _ _ (Permutation_map (fun v => (if Rle_dec (sq ((v - q) / (scale * m))) 1 then 1 else 0) * (1 - sq ((v - q) / (scale * m))) * (1 - 5 * sq ((v - q) / (scale * m)))) (Permutation_sym P))).
    rewrite (rsum_perm _ _ (Permutation_map (fun v => (if Rle_dec (sq ((v - q) / (scale * m))) 1 then 1 else 0) * sq (v - q) * (1 - sq ((v - q) / (scale * m))) ^ 4) (Permutation_sym P))).
    now rewrite (rlen_perm _ _ P).
  - intros EQ a c A. unfold biweight. rewrite (EQ a c x A), C, mad_affine, M. cbn [option_map]. rewrite <- Hb. f_equal. f_equal.
    assert (AP : 0 < Rabs a) by now apply Rabs_pos_lt.
    destruct (Req_EM_T (scale * (Rabs a * m)) 0) as [Z|Z], (Req_EM_T (scale * m) 0) as [Z'|Z']; [reflexivity| | |].
    + exfalso. apply Z'. replace (scale * (Rabs a * m)) with (Rabs a * (scale * m)) in Z by ring. apply Rmult_integral in Z. destruct Z; [lra|assumption].
    + exfalso. apply Z. replace (scale * (Rabs a * m)) with (Rabs a * (scale * m)) by ring. rewrite Z'. ring.
    + cbv zeta. rewrite !map_map.
      assert (U : forall v, sq ((a * v + c - (a * q + c)) / (scale * (Rabs a * m))) = sq ((v - q) / (scale * m))).
      { intros v. unfold sq. assert (S0 : scale <> 0) by (intros E; apply Z'; rewrite E; ring). assert (M0 : m <> 0) by (intros E; apply Z'; rewrite E; ring).
        replace ((a * v + c - (a * q + c)) / (scale * (Rabs a * m))) with (a / Rabs a * ((v - q) / (scale * m))) by (field; repeat split; auto; lra).
        assert (a / Rabs a * (a / Rabs a) = 1). { unfold Rabs. destruct (Rcase_abs a); field; lra. } set (w := (v - q) / (scale * m)). set (g := a / Rabs a) in *. replace (g * w * (g * w)) with (g * g * (w * w)) by ring. rewrite H. ring. }
      rewrite (map_ext_R (fun v => (if Rle_dec (sq ((a * v + c - (a * q + c)) / (scale * (Rabs a * m)))) 1 then 1 else 0) * (1 - sq ((a * v + c - (a * q + c)) / (scale * (Rabs a * m)))) * (1 - 5 * sq ((a * v + c - (a * q + c)) / (scale * (Rabs a * m)))))
                         (fun v => (if Rle_dec (sq ((v - q) / (scale * m))) 1 then 1 else 0) * (1 - sq ((v - q) / (scale * m))) * (1 - 5 * sq ((v - q) / (scale * m))))) by (intros v; rewrite !U; reflexivity).
      rewrite (map_ext_R (fun v => (if Rle_dec (sq ((a * v + c - (a * q + c)) / (scale * (Rabs a * m)))) 1 then 1 else 0) * sq (a * v + c - (a * q + c)) * (1 - sq ((a * v + c - (a * q + c)) / (scale * (Rabs a * m)))) ^ 4)
                         (fun v => (a * a) * ((if Rle_dec (sq ((v - q) / (scale * m))) 1 then 1 else 0) * sq (v - q) * (1 - sq ((v - q) / (scale * m))) ^ 4))) by (intros v; rewrite !U; unfold sq; ring).
      rewrite <- (map_map (fun v => (if Rle_dec (sq ((v - q) / (scale * m))) 1 then 1 else 0) * sq (v - q) * (1 - sq ((v - q) / (scale * m))) ^ 4) (fun t => a * a * t)), rsum_scale, rlen_map.
      destruct (Req_EM_T _ 0); [reflexivity|]. cbn [option_map]. apply f_equal. unfold Rdiv. ring.
Qed.
(** values further from the centre than [scale] deviations have no influence beyond their part in the centre and the deviation *)
Theorem C93_biweight_outlier : forall x y y' scale cen q m, 0 < scale -> cen (x ++ [y]) = Some q -> cen (x ++ [y']) = Some q -> 
  median_absolute_deviation 1 (x ++ [y]) false cen = Some m -> median_absolute_deviation 1 (x ++ [y']) false cen = Some m ->
  scale * m < Rabs (y - q) -> scale * m < Rabs (y' - q) -> biweight (x ++ [y]) scale cen = biweight (x ++ [y']) scale cen.
Proof.
  intros x y y' scale cen q m S C C' M M' Y Y'. unfold median_absolute_deviation in M, M'. 
  destruct (mad (x ++ [y])) as [r|] eqn:Q; [|discriminate]. destruct (mad (x ++ [y'])) as [r'|] eqn:Q'; [|discriminate]. apply some_inj in M, M'. subst r r'.
  unfold biweight. rewrite C, C', Q, Q'. f_equal. f_equal. destruct (Req_EM_T (scale * m) 0) as [Z|Z]; [reflexivity|]. cbv zeta.
  pose proof (mad_nonneg _ _ Q) as MP. assert (P : 0 < scale * m) by nra.
  assert (O : forall t, scale * m < Rabs (t - q) -> ~ sq ((t - q) / (scale * m)) <= 1).
  { intros t T L. assert (E : sq ((t - q) / (scale * m)) = (Rabs (t - q) / (scale * m)) * (Rabs (t - q) / (scale * m))).
    { unfold sq. unfold Rabs. destruct (Rcase_abs (t - q)); field; repeat split; nra. }
    rewrite E in L. assert (1 < Rabs (t - q) / (scale * m)). { apply Rmult_lt_reg_r with (scale * m); [exact P|]. unfold Rdiv. rewrite Rmult_assoc, Rinv_l by lra. lra. } nra. }
  rewrite !map_app, !rsum_app. unfold rlen. rewrite !app_length. cbn [map rsum fold_right].
  destruct (Rle_dec (sq ((y - q) / (scale * m))) 1) as [L|_]; [exfalso; now apply (O y)|]. destruct (Rle_dec (sq ((y' - q) / (scale * m))) 1) as [L|_]; [exfalso; now apply (O y')|].
  rewrite !Rmult_0_l. reflexivity.
Qed.
(** ten values, one of them wild *)
Example C93_ex : exists q, median_absolute_deviation 1 [1; 2; 3; 4; 1000] false median = Some q /\ q <= 3.
Proof.
  destruct (mad_some [1; 2; 3; 4; 1000] ltac:(discriminate)) as (m & r & M & R' & Q). exists r. unfold median_absolute_deviation. rewrite R'. split; [reflexivity|].
  replace 3 with (4 - 1) by lra. apply (C93_mad_robust 1 [1; 2; 3; 4; 1000] median 1 4 r); [unfold median_absolute_deviation; now rewrite R'|].
  cbn [filter]. unfold inside. repeat (destruct (Rle_dec _ _); try lra). cbn. lia.
Qed.

(** the biweight is the textbook one: u counts the distance from the centre in units of [scale] deviations, and only values with |u| <= 1 count *)
Lemma rsum_filter (p : R -> bool) (f : R -> R) x : rsum (map f (filter p x)) = rsum (map (fun t => (if p t then 1 else 0) * f t) x).
Proof. induction x as [|t x IH]; [reflexivity|]. cbn [filter map rsum fold_right]. fold (rsum (map (fun t => (if p t then 1 else 0) * f t) x)). rewrite <- IH. destruct (p t); cbn [map rsum fold_right]; unfold rsum; ring. Qed.
Theorem C93_biweight_value : forall x scale cen q m, 0 < scale -> cen x = Some q -> median_absolute_deviation 1 x false cen = Some m -> 0 < m ->
  let near := filter (inside (q - scale * m) (q + scale * m)) x in let u t := (t - q) / (scale * m) in
  let N := fold_right Rplus 0 (map (fun t => (t - q) ^ 2 * (1 - u t ^ 2) ^ 4) near) in
  let D := fold_right Rplus 0 (map (fun t => (1 - u t ^ 2) * (1 - 5 * u t ^ 2)) near) in
  (D <> 0 -> biweight x scale cen = Some (Some (INR (List.length x) * N / D ^ 2), q)) /\ (D = 0 -> biweight x scale cen = Some (None, q)).
Proof.
  intros x scale cen q m S C M P near u N D. unfold median_absolute_deviation in M. destruct (mad x) as [r|] eqn:Q; [|discriminate]. apply some_inj in M. subst r.
  assert (Pm : 0 < scale * m) by nra.
  assert (I' : forall t, inside (q - scale * m) (q + scale * m) t = true <-> sq (u t) <= 1).
  { intros t. rewrite inside_spec. unfold u, sq. assert (E : (t - q) = (t - q) / (scale * m) * (scale * m)) by (field; split; lra). set (w := (t - q) / (scale * m)) in *. split; intros H.
    - assert (- (1) <= w <= 1); [|nra]. split; apply Rmult_le_reg_r with (scale * m); lra.
    - assert (- (1) <= w <= 1) by (split; nra). assert (- (scale * m) <= t - q <= scale * m); [|lra]. rewrite E. split; nra. }
  assert (W : forall (f : R -> R), rsum (map f near) = rsum (map (fun t => (if Rle_dec (sq (u t)) 1 then 1 else 0) * f t) x)).
  { intros f. unfold near. rewrite rsum_filter. f_equal. apply map_ext. intros t. specialize (I' t). destruct (inside (q - scale * m) (q + scale * m) t), (Rle_dec (sq (u t)) 1); try reflexivity; [exfalso; apply n; now apply I'|]. assert (false = true) by now apply I'. discriminate. }
  assert (EN : N = rsum (map (fun v => (if Rle_dec (sq ((v - q) / (scale * m))) 1 then 1 else 0) * sq (v - q) * (1 - sq ((v - q) / (scale * m))) ^ 4) x)).
  { unfold N. fold (rsum (map (fun t => (t - q) ^ 2 * (1 - u t ^ 2) ^ 4) near)). rewrite W. f_equal. apply map_ext. intros t. unfold u, sq. ring. }
  assert (ED : D = rsum (map (fun v => (if Rle_dec (sq ((v - q) / (scale * m))) 1 then 1 else 0) * (1 - sq ((v - q) / (scale * m))) * (1 - 5 * sq ((v - q) / (scale * m)))) x)).
  { unfold D. fold (rsum (map (fun t => (1 - u t ^ 2) * (1 - 5 * u t ^ 2)) near)). rewrite W. f_equal. apply map_ext. intros t. unfold u, sq. ring. }
  unfold biweight. rewrite C, Q. cbv zeta. destruct (Req_EM_T (scale * m) 0) as [Z|_]; [lra|]. rewrite <- EN, <- ED. split; intros Hd.
  - destruct (Req_EM_T (sq D) 0) as [Z|_]; [exfalso; apply Hd; unfold sq in Z; nra|]. do 3 f_equal. unfold rlen, sq. field. exact Hd.
  - rewrite Hd. unfold sq at 1. destruct (Req_EM_T (0 * 0) 0) as [_|Z]; [reflexivity|]. exfalso. apply Z. ring.
Qed.
(** for 4 k + 1 values the interquartile range is the distance of two of them; and the scaled forms give sigma where the quartiles are those
    of a normal distribution, sigma sqrt 2 erfinv(1/2) from the middle *)
Theorem C93_quartiles : forall ei x s k, List.length x = (4 * k + 1)%nat -> Permutation x s -> StronglySorted Rle s ->
  interquartile_range ei x false = Some (nth (3 * k) s 0 - nth k s 0).
Proof.
  intros ei x s k L P S. assert (N : x <> []) by (intros ->; cbn in L; lia). unfold interquartile_range. rewrite !score_lin by exact N. rewrite (sort_eq x s P S), L. unfold lin.
  replace (4 * k + 1 - 1)%nat with (4 * k)%nat by lia. replace (75 * (4 * k))%nat with (3 * k * 100)%nat by lia. replace (25 * (4 * k))%nat with (k * 100)%nat by lia. rewrite !Nat.mod_mul, !Nat.div_mul by lia. reflexivity.
Qed.
Theorem C93_normal_scale : forall ei x cen sigma, 0 < ei ->
  (interquartile_range ei x false = Some (2 * (sigma * (sqrt 2 * ei))) -> interquartile_range ei x true = Some sigma) /\
  (median_absolute_deviation ei x false cen = Some (sigma * (sqrt 2 * ei)) -> median_absolute_deviation ei x true cen = Some sigma).
Proof.
  intros ei x cen sigma E. assert (S2 : 0 < sqrt 2) by (apply sqrt_lt_R0; lra). assert (S8 : sqrt 8 = 2 * sqrt 2). { replace 8 with (2 * 2 * 2) by ring. rewrite sqrt_mult by lra. rewrite sqrt_square by lra. reflexivity. }
  unfold interquartile_range, median_absolute_deviation. split; intros H.
  - destruct (score x 75) as [a|]; [|discriminate]. destruct (score x 25) as [b|]; [|discriminate]. apply some_inj in H. f_equal. rewrite H, S8. field. split; lra.
  - destruct (mad x) as [r|]; [|discriminate]. apply some_inj in H. f_equal. rewrite H. field. split; lra.
Qed.
