(** * CcdReject: rejecting outliers while combining images (C87) *)
From Coq Require Import Reals ZArith List Bool Arith Lia Lra Psatz Permutation Sorted.
From Verif Require Import PyBase AlgModel AlgClip CcdModel CcdRegion CcdEdit CcdClip CcdProcModel CcdBias CcdCombine.
Import ListNotations.
Open Scope R_scope.

(** ** Specification: the values not more than [sc] standard deviations above the mean *)
Definition squares (mu : R) (l : list R) : R := fold_right Rplus 0 (map (fun x => (x - mu) * (x - mu)) l).
Definition moments (l : list R) (mu v : R) : Prop :=
  mu * INR (length l) = fold_right Rplus 0 l /\ v * INR (length l) = squares mu l.
Definition not_above (t : R) (l : list R) : list R := filter (fun x => if Rle_dec x t then true else false) l.

(** ** Lemmas *)
Lemma squares_nonneg mu l : 0 <= squares mu l.
Proof. unfold squares. induction l as [|x l IH]; cbn [map fold_right]; [lra|]. pose proof (sq_nn (x - mu)). lra. Qed.
Lemma squares_zero mu l : squares mu l = 0 -> forall x, In x l -> x = mu.
Proof.
  induction l as [|y l IH]; intros E x I'; [contradiction|]. unfold squares in E. cbn [map fold_right] in E. fold (squares mu l) in E.
  pose proof (squares_nonneg mu l). pose proof (sq_nn (y - mu)). destruct I' as [<-|I'].
  - assert (D : Rsqr (y - mu) = 0) by (unfold Rsqr; lra). apply Rsqr_0_uniq in D. lra.
  - apply IH; [lra|exact I'].
Qed.
Lemma moments_model l mu v : l <> [] -> moments l mu v -> mean l = Some mu /\ std l = Some (sqrt v) /\ 0 <= v.
Proof.
  intros N (M & V). pose proof (rlen_pos l N) as P. unfold rlen in P.
  assert (MM : mean l = Some mu) by (rewrite mean_some by exact N; f_equal; unfold rsum, rlen; rewrite <- M; field; lra).
  assert (VV : var l = Some v) by (unfold var; rewrite MM; f_equal; unfold rsum, rlen; fold (squares mu l); rewrite <- V; field; lra).
  split; [exact MM|]. split; [unfold std; now rewrite VV|]. pose proof (squares_nonneg mu l). nra.
Qed.
Lemma moments_exist l : l <> [] -> exists mu v, moments l mu v.
Proof.
  intros N. pose proof (rlen_pos l N) as P. unfold rlen in P. exists (fold_right Rplus 0 l / INR (length l)).
  exists (squares (fold_right Rplus 0 l / INR (length l)) l / INR (length l)). split; field; lra.
Qed.
Lemma clipped_spec sc l mu v x : 0 <= sc -> l <> [] -> moments l mu v -> In x l ->
  negb (clipped sc l x) = if Rle_dec x (mu + sc * sqrt v) then true else false.
Proof.
  intros SC N M I'. destruct (moments_model l mu v N M) as (MM & SS & V). unfold clipped. rewrite MM, SS.
  destruct (Req_EM_T (sqrt v) 0) as [Z|Z].
  - rewrite Z. assert (V0 : v = 0) by (apply sqrt_eq_0; assumption). destruct M as (_ & Q). rewrite V0, Rmult_0_l in Q.
    rewrite (squares_zero mu l (eq_sym Q) x I'). destruct (Rle_dec mu (mu + sc * 0)); [reflexivity|lra].
  - pose proof (sqrt_pos v). assert (SP : 0 < sqrt v) by lra. unfold Rltb.
    assert (D : (x - mu) / sqrt v * sqrt v = x - mu) by (field; lra).
    destruct (Rlt_dec sc ((x - mu) / sqrt v)) as [A|A], (Rle_dec x (mu + sc * sqrt v)) as [B|B]; try reflexivity; exfalso; nra.
Qed.
Lemma used_spec k sc l mu v : named k -> 0 <= sc -> l <> [] -> moments l mu v -> used k (Some sc) l = not_above (mu + sc * sqrt v) l.
Proof.
  intros K SC N M. rewrite used_named by exact K. unfold not_above. apply filter_ext_in. intros x I'. now apply clipped_spec.
Qed.
Lemma survivor sc l mu v : 0 <= sc -> l <> [] -> moments l mu v -> not_above (mu + sc * sqrt v) l <> [].
Proof.
  intros SC N (M & _) E. destruct (exists_small l (fun x => x) mu N) as (x & I' & X); [rewrite map_id; unfold rsum, rlen; rewrite <- M; lra|].
  assert (F : In x (not_above (mu + sc * sqrt v) l)).
  { apply filter_In. split; [exact I'|]. pose proof (sqrt_pos v). destruct (Rle_dec x (mu + sc * sqrt v)); [reflexivity|]. exfalso. nra. }
  rewrite E in F. exact F.
Qed.
Lemma csq l : rsum l * rsum l <= rlen l * rsum (map (fun x => x * x) l).
Proof.
  induction l as [|x l IH]; [unfold rsum, rlen; cbn; lra|].
  change (rsum (x :: l)) with (x + rsum l). change (rsum (map (fun x => x * x) (x :: l))) with (x * x + rsum (map (fun x => x * x) l)).
  replace (rlen (x :: l)) with (rlen l + 1) by (unfold rlen; cbn [length]; now rewrite S_INR).
  set (s := rsum l) in *. set (q := rsum (map (fun x => x * x) l)) in *. set (n := rlen l) in *.
  destruct l as [|y l]; [unfold s, q, n, rsum, rlen in *; cbn in *; lra|].
  assert (NP : 0 < n) by (apply rlen_pos; discriminate).
  assert (C : 2 * x * s <= n * (x * x) + q); [|lra].
  apply (Rmult_le_reg_l n); [exact NP|]. pose proof (sq_nn (n * x - s)). lra.
Qed.
Lemma samuelson l mu v x : moments l mu v -> In x l -> (x - mu) * (x - mu) <= (INR (length l) - 1) * v.
Proof.
  intros (M & V) I'. apply in_split in I'. destruct I' as (l1 & l2 & ->). set (r := l1 ++ l2).
  assert (PM : Permutation (l1 ++ x :: l2) (x :: r)) by (apply Permutation_sym, Permutation_middle).
  assert (L : length (l1 ++ x :: l2) = S (length r)) by (rewrite (Permutation_length PM); reflexivity). rewrite L, S_INR in *.
  change (fold_right Rplus 0 (l1 ++ x :: l2)) with (rsum (l1 ++ x :: l2)) in M. rewrite (rsum_perm _ _ PM) in M.
  unfold squares in V. change (fold_right Rplus 0 (map (fun x0 => (x0 - mu) * (x0 - mu)) (l1 ++ x :: l2))) with (rsum (map (fun x0 => (x0 - mu) * (x0 - mu)) (l1 ++ x :: l2))) in V.
  rewrite (rsum_perm _ _ (Permutation_map (fun x0 => (x0 - mu) * (x0 - mu)) PM)) in V. cbn [map] in V.
  change (rsum (x :: r)) with (x + rsum r) in M.
  change (rsum ((x - mu) * (x - mu) :: map (fun x0 => (x0 - mu) * (x0 - mu)) r)) with ((x - mu) * (x - mu) + rsum (map (fun x0 => (x0 - mu) * (x0 - mu)) r)) in V.
  pose proof (csq (map (fun y => y - mu) r)) as C. rewrite map_map, rlen_map in C. cbv beta in C. unfold rlen in C.
  assert (SR : rsum (map (fun y => y - mu) r) = - (x - mu)).
  { rewrite (map_ext (fun y => y - mu) (fun y => 1 * y + - mu)) by (intros; lra). rewrite rsum_affine. unfold rlen. lra. }
  rewrite SR in C. set (d := x - mu) in *. set (q := rsum (map (fun x0 => (x0 - mu) * (x0 - mu)) r)) in *. pose proof (pos_INR (length r)) as NP. set (n := INR (length r)) in *.
  assert (C' : d * d <= n * q) by (replace (d * d) with (- d * - d) by lra; exact C). replace (n + 1 - 1) with n by lra.
  apply (Rmult_le_reg_l (n + 1)); [lra|]. replace ((n + 1) * (n * v)) with (n * (v * (n + 1))) by lra. rewrite V. lra.
Qed.
Lemma not_above_mean t l mu : l <> [] -> mu * INR (length l) = fold_right Rplus 0 l -> mu <= t ->
  fold_right Rplus 0 (not_above t l) <= mu * INR (length (not_above t l)).
Proof.
  intros N M T.
  assert (G : fold_right Rplus 0 (not_above t l) + mu * (INR (length l) - INR (length (not_above t l))) <= fold_right Rplus 0 l).
  { clear N M. unfold not_above. induction l as [|x l IH]; cbn [filter fold_right length]; [cbn; lra|].
    destruct (Rle_dec x t); cbn [fold_right length]; rewrite ?S_INR; lra. }
  rewrite <- M in G. lra.
Qed.

(** ** C87 *)
(** With rejection beyond [sc] standard deviations, each pixel is combined from the values that are not more than
    [sc] standard deviations above the mean of that pixel; at least one value remains. *)
Theorem C87_kept k sc t ims n m : named k -> 0 <= sc -> ims <> [] -> same_shape n m ims ->
  exists r, combineImages k (Some sc) [] t ims = inl r /\ r_nx r = n /\ r_ny r = m /\
    forall i j mu v, moments (values ims i j) mu v ->
      exists x, r_px r i j = Some x /\ not_above (mu + sc * sqrt v) (values ims i j) <> [] /\ combined k x (not_above (mu + sc * sqrt v) (values ims i j)).
Proof.
  intros K SC N S. assert (A : forall n, applicable k n) by (intros; destruct K as [<-|[<-|[<-|[<-|[<-|[]]]]]]; exact I).
  destruct (combine_plain k (Some sc) t ims n m N S (A _)) as (r & E & X & Y & P). exists r. repeat split; try assumption.
  intros i j mu v M. assert (NV : values ims i j <> []) by (unfold values; destruct ims; [congruence|discriminate]).
  pose proof (survivor sc _ mu v SC NV M) as NU. rewrite P, (used_spec k sc _ mu v K SC NV M).
  destruct (op_some k _ NU (A _)) as (x & V). exists x. split; [exact V|]. split; [exact NU|]. now apply op_spec.
Qed.
(** a limit of at least the square root of the number of images less one never rejects anything *)
Theorem C87_large k sc t ims n m r r0 : named k -> 0 <= sc -> INR (length ims) - 1 <= sc * sc -> same_shape n m ims ->
  combineImages k (Some sc) [] t ims = inl r -> combineImages k None [] t ims = inl r0 -> forall i j, r_px r i j = r_px r0 i j.
Proof.
  intros K SC L S E E0 i j. assert (N : ims <> []) by (intros ->; discriminate).
  assert (A : forall n, applicable k n) by (intros; destruct K as [<-|[<-|[<-|[<-|[<-|[]]]]]]; exact I).
  destruct (combine_plain k (Some sc) t ims n m N S (A _)) as (q & E' & _ & _ & P). rewrite E in E'. injection E' as <-.
  destruct (combine_plain k None t ims n m N S (A _)) as (q & E' & _ & _ & P0). rewrite E0 in E'. injection E' as <-.
  rewrite P, P0. f_equal. assert (NV : values ims i j <> []) by (unfold values; destruct ims; [congruence|discriminate]).
  destruct (moments_exist _ NV) as (mu & v & M). rewrite (used_spec k sc _ mu v K SC NV M).
  replace (used k None (values ims i j)) with (values ims i j) by (destruct k; reflexivity).
  unfold not_above. apply filter_all. intros x I'. pose proof (samuelson _ mu v x M I') as SM. destruct (moments_model _ mu v NV M) as (_ & _ & VP).
  assert (LV : length (values ims i j) = length ims) by (unfold values; apply map_length). rewrite LV in SM.
  destruct (Rle_dec x (mu + sc * sqrt v)) as [H|H]; [reflexivity|]. exfalso. apply Rnot_le_lt in H.
  pose proof (sqrt_pos v) as SV. pose proof (sqrt_sqrt v VP) as SQ. pose proof (Rmult_le_compat_r v _ _ VP L) as LL.
  assert (G : 0 <= sc * sqrt v) by now apply Rmult_le_pos.
  assert (H' : sc * sqrt v * (sc * sqrt v) < (x - mu) * (x - mu)) by (apply Rmult_le_0_lt_compat; lra).
  replace (sc * sqrt v * (sc * sqrt v)) with (sc * sc * (sqrt v * sqrt v)) in H' by lra. rewrite SQ in H'. lra.
Qed.
(** rejection lowers the mean, or leaves it; it never rejects the smallest value *)
Theorem C87_lowers sc t ims n m r r0 : 0 <= sc -> same_shape n m ims ->
  (combineImages KMean (Some sc) [] t ims = inl r -> combineImages KMean None [] t ims = inl r0 ->
   forall i j, exists x y, r_px r i j = Some x /\ r_px r0 i j = Some y /\ x <= y) /\
  (combineImages KMin (Some sc) [] t ims = inl r -> combineImages KMin None [] t ims = inl r0 -> forall i j, r_px r i j = r_px r0 i j).
Proof.
  intros SC S. split; intros E E0 i j; assert (N : ims <> []) by (intros ->; discriminate); assert (NV : values ims i j <> []) by (unfold values; destruct ims; [congruence|discriminate]);
    destruct (moments_exist _ NV) as (mu & v & M).
  - destruct (C87_kept KMean sc t ims n m ltac:(now left) SC N S) as (q & E' & _ & _ & P). rewrite E in E'. injection E' as <-.
    destruct (C86_pixels KMean t ims n m N S I) as (q & E' & _ & _ & P0). rewrite E0 in E'. injection E' as <-.
    destruct (P i j mu v M) as (x & X & NU & C), (P0 i j) as (y & Y & C0). exists x, y. split; [exact X|]. split; [exact Y|].
    cbn [combined is_average] in C, C0. destruct C as (_ & C), C0 as (_ & C0). destruct M as (M & _).
    pose proof (rlen_pos _ NV) as LP. pose proof (rlen_pos _ NU) as LU. unfold rlen in LP, LU.
    assert (EY : y = mu) by (apply (Rmult_eq_reg_r (INR (length (values ims i j)))); [rewrite C0, M; reflexivity|lra]). subst y.
    apply (Rmult_le_reg_r _ _ _ LU). rewrite C. apply not_above_mean; [exact NV|exact M|]. pose proof (sqrt_pos v). pose proof (Rmult_le_pos _ _ SC H). lra.
  - destruct (C87_kept KMin sc t ims n m ltac:(cbn; auto) SC N S) as (q & E' & _ & _ & P). rewrite E in E'. injection E' as <-.
    destruct (C86_pixels KMin t ims n m N S I) as (q & E' & _ & _ & P0). rewrite E0 in E'. injection E' as <-.
    destruct (P i j mu v M) as (x & X & NU & C), (P0 i j) as (y & Y & C0). rewrite X, Y. f_equal. cbn [combined is_average] in C, C0. destruct C as (C1 & C2), C0 as (D1 & D2).
    unfold not_above in C1, C2. apply filter_In in C1. destruct C1 as (C1 & C3). apply Rle_antisym; [|now apply D2].
    apply C2. apply filter_In. split; [exact D1|]. pose proof (D2 x C1). destruct (Rle_dec x (mu + sc * sqrt v)); [|discriminate].
    destruct (Rle_dec y (mu + sc * sqrt v)); [reflexivity|]. lra.
Qed.
(** ** one outlier among equal values *)
Lemma fold_repeat (x : R) c f : fold_right Rplus f (repeat x c) = INR c * x + f.
Proof. induction c as [|c IH]; [cbn; lra|]. cbn [repeat fold_right]. rewrite IH, S_INR. lra. Qed.
Lemma map_repeat {A B} (f : A -> B) x c : map f (repeat x c) = repeat (f x) c.
Proof. induction c as [|c IH]; cbn [repeat map]; congruence. Qed.
Lemma outlier_moments x y c : let l := repeat x c ++ [y] in
  moments l (x + (y - x) / (INR c + 1)) (INR c * ((y - x) * (y - x)) / ((INR c + 1) * (INR c + 1))).
Proof.
  cbv zeta. pose proof (pos_INR c) as P. unfold moments. rewrite app_length, repeat_length. cbn [length]. rewrite plus_INR. cbn [INR].
  split.
  - rewrite fold_right_app. cbn [fold_right]. rewrite fold_repeat. field. lra.
  - unfold squares. rewrite map_app, fold_right_app. cbn [map fold_right]. rewrite map_repeat, fold_repeat. field. lra.
Qed.
Lemma not_above_repeat t x c : x <= t -> not_above t (repeat x c) = repeat x c.
Proof. intros H. unfold not_above. apply filter_all. intros z Z. apply repeat_spec in Z. subst. now destruct (Rle_dec x t). Qed.
Lemma outlier_sqrt x y c : sqrt (INR c * ((y - x) * (y - x)) / ((INR c + 1) * (INR c + 1))) = sqrt (INR c) * Rabs (y - x) / (INR c + 1).
Proof.
  pose proof (pos_INR c) as P. rewrite sqrt_div_alt by nra. rewrite sqrt_mult_alt by exact P. rewrite (sqrt_square (INR c + 1)) by lra.
  change ((y - x) * (y - x)) with (Rsqr (y - x)). now rewrite sqrt_Rsqr_abs.
Qed.
(** Some images that agree and one that is brighter: it is rejected exactly when the limit is below the square root
    of the number of the others, and the mean is then the value of the others. *)
Theorem C87_bright sc t good bad c i j : 0 <= sc -> (0 < c)%nat -> nx bad = nx good -> ny bad = ny good -> px good i j < px bad i j ->
  exists r x, combineImages KMean (Some sc) [] t (repeat good c ++ [bad]) = inl r /\ r_px r i j = Some x /\
    (if Rlt_dec sc (sqrt (INR c)) then x = px good i j else x * (INR c + 1) = INR c * px good i j + px bad i j).
Proof.
  intros SC C X Y D. set (ims := repeat good c ++ [bad]).
  assert (S : same_shape (nx good) (ny good) ims) by (intros a A; apply in_app_or in A; destruct A as [A|[<-|[]]]; [apply repeat_spec in A; now subst|auto]).
  assert (N : ims <> []) by (unfold ims; intros E; now apply app_eq_nil in E).
  destruct (C87_kept KMean sc t ims _ _ ltac:(now left) SC N S) as (r & E & _ & _ & P). exists r.
  set (x := px good i j) in *. set (y := px bad i j) in *.
  assert (VE : values ims i j = repeat x c ++ [y]) by (unfold values, ims; rewrite map_app, map_repeat; reflexivity).
  specialize (P i j). rewrite VE in P. destruct (P _ _ (outlier_moments x y c)) as (z & Z & NU & CB). clear P. exists z. split; [exact E|]. split; [exact Z|].
  rewrite outlier_sqrt in CB, NU. rewrite Rabs_pos_eq in CB, NU by lra.
  set (T := x + (y - x) / (INR c + 1) + sc * (sqrt (INR c) * (y - x) / (INR c + 1))) in *.
  assert (CP : 1 <= INR c) by (apply (le_INR 1); lia). pose proof (sqrt_sqrt (INR c) ltac:(lra)) as SQ. pose proof (sqrt_pos (INR c)) as SP. pose proof (sqrt_lt_R0 (INR c) ltac:(lra)) as SP'.
  assert (TT : (T - y) * (INR c + 1) = (y - x) * sqrt (INR c) * (sc - sqrt (INR c))) by (transitivity (sc * sqrt (INR c) * (y - x) - (y - x) * INR c); [unfold T; field; lra|rewrite <- SQ at 2; lra]).
  assert (XT : x <= T).
  { unfold T. pose proof (Rmult_le_pos sc (sqrt (INR c) * (y - x) / (INR c + 1)) SC). assert (0 <= (y - x) / (INR c + 1)) by (apply Rmult_le_pos; [lra|left; apply Rinv_0_lt_compat; lra]).
    assert (0 <= sqrt (INR c) * (y - x) / (INR c + 1)) by (replace (sqrt (INR c) * (y - x) / (INR c + 1)) with (sqrt (INR c) * ((y - x) / (INR c + 1))) by (unfold Rdiv; lra); now apply Rmult_le_pos). lra. }
  assert (NA : not_above T (repeat x c ++ [y]) = repeat x c ++ (if Rle_dec y T then [y] else [])).
  { unfold not_above. rewrite filter_app. fold (not_above T (repeat x c)). rewrite not_above_repeat by exact XT. cbn [filter]. now destruct (Rle_dec y T). }
  rewrite NA in CB. cbn [combined is_average] in CB. destruct CB as (_ & CB).
  assert (YX : 0 < (y - x) * sqrt (INR c)) by (apply Rmult_lt_0_compat; lra).
  destruct (Rlt_dec sc (sqrt (INR c))) as [L|L].
  - destruct (Rle_dec y T) as [H|H].
    + exfalso. assert (0 <= (T - y) * (INR c + 1)) by (apply Rmult_le_pos; lra). rewrite TT in H0. assert (0 < (y - x) * sqrt (INR c) * (sqrt (INR c) - sc)) by (apply Rmult_lt_0_compat; lra). lra.
    + rewrite app_nil_r, repeat_length, fold_repeat, Rplus_0_r in CB. apply (Rmult_eq_reg_r (INR c)); [lra|lra].
  - destruct (Rle_dec y T) as [H|H].
    + rewrite app_length, repeat_length, fold_right_app in CB. cbn [length fold_right] in CB. rewrite fold_repeat, plus_INR in CB. cbn [INR] in CB. lra.
    + exfalso. apply H. assert (0 <= (T - y) * (INR c + 1)) by (rewrite TT; apply Rmult_le_pos; lra). assert (0 <= T - y); [|lra]. apply (Rmult_le_reg_r (INR c + 1)); lra.
Qed.
(** A darker image is never rejected, however dark, however many images agree (limit of one standard deviation or
    more): the documentation promises rejection of points that many standard deviations from the mean. *)
Theorem C87_dark_refuted sc t good bad c i j : 1 <= sc -> (0 < c)%nat -> nx bad = nx good -> ny bad = ny good -> px bad i j < px good i j ->
  exists r x, combineImages KMean (Some sc) [] t (repeat good c ++ [bad]) = inl r /\ r_px r i j = Some x /\ x * (INR c + 1) = INR c * px good i j + px bad i j.
Proof.
  intros SC C X Y D. set (ims := repeat good c ++ [bad]).
  assert (S : same_shape (nx good) (ny good) ims) by (intros a A; apply in_app_or in A; destruct A as [A|[<-|[]]]; [apply repeat_spec in A; now subst|auto]).
  assert (N : ims <> []) by (unfold ims; intros E; now apply app_eq_nil in E).
  destruct (C87_kept KMean sc t ims _ _ ltac:(now left) ltac:(lra) N S) as (r & E & _ & _ & P). exists r.
  set (x := px good i j) in *. set (y := px bad i j) in *.
  assert (VE : values ims i j = repeat x c ++ [y]) by (unfold values, ims; rewrite map_app, map_repeat; reflexivity).
  specialize (P i j). rewrite VE in P. destruct (P _ _ (outlier_moments x y c)) as (z & Z & NU & CB). clear P. exists z. split; [exact E|]. split; [exact Z|].
  rewrite outlier_sqrt in CB, NU. rewrite Rabs_left in CB, NU by lra.
  set (T := x + (y - x) / (INR c + 1) + sc * (sqrt (INR c) * - (y - x) / (INR c + 1))) in *.
  assert (CP : 1 <= INR c) by (apply (le_INR 1); lia). assert (S1 : 1 <= sqrt (INR c)) by (rewrite <- sqrt_1; apply sqrt_le_1_alt; exact CP).
  assert (IP : 0 < / (INR c + 1)) by (apply Rinv_0_lt_compat; lra).
  assert (XT : x <= T).
  { unfold T. replace (x + (y - x) / (INR c + 1) + sc * (sqrt (INR c) * - (y - x) / (INR c + 1))) with (x + (sc * sqrt (INR c) - 1) * ((x - y) * / (INR c + 1))) by (field; lra).
    assert (0 <= sc * sqrt (INR c) - 1) by nra. assert (0 <= (x - y) * / (INR c + 1)) by (apply Rmult_le_pos; lra). pose proof (Rmult_le_pos _ _ H H0). lra. }
  assert (NA : not_above T (repeat x c ++ [y]) = repeat x c ++ [y]).
  { unfold not_above. rewrite filter_app. fold (not_above T (repeat x c)). rewrite not_above_repeat by exact XT. cbn [filter]. destruct (Rle_dec y T) as [|H]; [reflexivity|]. exfalso. apply H. lra. }
  rewrite NA in CB. cbn [combined is_average] in CB. destruct CB as (_ & CB).
  rewrite app_length, repeat_length, fold_right_app in CB. cbn [length fold_right] in CB. rewrite fold_repeat, plus_INR in CB. cbn [INR] in CB. lra.
Qed.
(** with weights nothing is ever rejected *)
Theorem C87_weights_refuted ws sc t ims : combineImages (KWeights ws) (Some sc) [] t ims = combineImages (KWeights ws) None [] t ims.
Proof. reflexivity. Qed.
Example C87_case : exists r x, combineImages KMean (Some 2) [] true (repeat (Arr 1 1 (fun _ _ => 10)) 9 ++ [Arr 1 1 (fun _ _ => 5000)]) = inl r /\ r_px r 0 0 = Some x /\ x = 10.
Proof.
  destruct (C87_bright 2 true (Arr 1 1 (fun _ _ => 10)) (Arr 1 1 (fun _ _ => 5000)) 9 0 0) as (r & x & E & P & Q); cbn [nx ny px]; try lra; try lia.
  exists r, x. split; [exact E|]. split; [exact P|]. destruct (Rlt_dec 2 (sqrt (INR 9))) as [H|H]; [exact Q|]. exfalso. apply H.
  replace (INR 9) with (3 * 3) by (cbn; lra). rewrite sqrt_square; lra.
Qed.
