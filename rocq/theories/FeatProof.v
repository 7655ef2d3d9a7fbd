(** * FeatProof: the features of a spectrum (C115) *)
From Coq Require Import List Bool Reals Lra Lia ZArith String Sorted Arith.
From Verif Require Import PyBase RealTrig AlgModel CosmoDistModel PhotModel SpecModel SpecProps SpecObj SpecLineModel SpecLines FeatModel.
Import ListNotations.
Open Scope R_scope.

(** ** Specification *)
(** the continuum below pixel [k]; x1 and x2 are the lower and upper end of the extent *)
Definition continuum_at (x : list R) (fc : fcont) (sc : scontinuum) (x1 x2 : R) (k : nat) : R :=
  match fc, sc with
  | FromSpec, NoCont => 0
  | FromSpec, ContModel g => g (nth k x 0)
  | FromSpec, ContValues l => nth k l 0
  | Pair u v, _ => u + (v - u) * ((nth k x 0 - x1) / (x2 - x1))
  | Model g, _ => g (nth k x 0)
  | Values l, _ => nth k l 0
  end.
Definition whole (x : list R) (fc : fcont) (sc : scontinuum) : Prop := match fc, sc with FromSpec, ContValues l => List.length l = List.length x | Values l, _ => List.length l = List.length x | _, _ => True end.
Definition has_none (fc : fcont) (sc : scontinuum) : bool := match fc, sc with FromSpec, NoCont => true | _, _ => false end.
(** what a feature measured on pixels i..j-1 looks like; total f i j is the sum of f i, ..., f (j-1), width x k is half the distance of the neighbours of pixel k *)
Definition measured (x y : list R) (cont : nat -> R) (i j : nat) (f f' : feat) : Prop :=
  extent f' = extent f /\ fccont f' = fccont f /\ known f' = known f /\
  (total (fun k => nth k y 0) i j <> 0 -> center f' = Some (Some (total (fun k => nth k y 0 * nth k x 0) i j / total (fun k => nth k y 0) i j))) /\
  flux f' = total (fun k => (nth k y 0 - cont k) * width x k) i j /\
  (total cont i j <> 0 -> ew f' = Some (flux f' / (total cont i j / INR (j - i)))) /\ (total cont i j = 0 -> ew f' = None).
Definition pixels_in (x : list R) (x1 x2 : R) (i j : nat) : Prop := forall k, (k < List.length x)%nat -> ((i <= k < j)%nat <-> x1 <= nth k x 0 < x2).

Lemma total_rsum f i j : AlgModel.rsum (map f (seq i (j - i))) = total f i j.
Proof. reflexivity. Qed.
Lemma bcast_map (A : Type) f (g h : A -> R) (l : list A) : bcast f (map g l) (map h l) = Ok (map (fun a => f (g a) (h a)) l).
Proof. unfold bcast. rewrite !map_length, Nat.eqb_refl. now rewrite map2_map. Qed.
Definition full (x : list R) (fc : fcont) (sc : scontinuum) (x1 x2 : R) : option (list R) :=
  match fc with
  | FromSpec => match sc with NoCont => None | ContModel g => Some (map g x) | ContValues l => Some l end
  | Pair a b => Some (map (fun t => a + (b - a) * ((t - x1) / (x2 - x1))) x)
  | Model g => Some (map g x)
  | Values l => Some l
  end.
Lemma full_slice x fc sc x1 x2 i j : whole x fc sc -> (i <= j)%nat -> (j <= List.length x)%nat ->
  (match full x fc sc x1 x2 with None => map (fun _ => 0) (slice i j x) | Some l => slice i j l end) = map (continuum_at x fc sc x1 x2) (seq i (j - i)).
Proof.
  intros W Hij Hj. assert (M : forall g : R -> R, slice i j (map g x) = map (fun k => g (nth k x 0)) (seq i (j - i))).
  { intros g. rewrite slice_map by (rewrite map_length; lia). apply map_ext_in. intros k K. apply in_seq in K. rewrite (nth_indep _ 0 (g 0)) by (rewrite map_length; lia). apply map_nth. }
  assert (V : forall l, List.length l = List.length x -> slice i j l = map (fun k => nth k l 0) (seq i (j - i))) by (intros l L; apply slice_map; lia).
  destruct fc; cbn [full]; [destruct sc| | |]; cbn [whole] in W; try (rewrite M; reflexivity); try (rewrite V by exact W; reflexivity).
  rewrite slice_map by lia. rewrite map_map. reflexivity.
Qed.
Lemma compute_eq x y sc f i j : let x1 := Rmin (fst (extent f)) (snd (extent f)) in let x2 := Rmax (fst (extent f)) (snd (extent f)) in
  searchsorted x x1 = i -> searchsorted x x2 = j -> List.length y = List.length x -> whole x (fccont f) sc -> (1 <= i < j)%nat -> (j < List.length x)%nat ->
  let c := continuum_at x (fccont f) sc x1 x2 in
  compute_plain x y sc f = (Feat (extent f) (fccont f) (Some (quot (total (fun k => nth k y 0 * nth k x 0) i j) (total (fun k => nth k y 0) i j))) (total (fun k => (nth k y 0 - c k) * width x k) i j)
    (quot (total (fun k => (nth k y 0 - c k) * width x k) i j) (total c i j / INR (j - i))) (known f), Ok tt).
Proof.
  intros x1 x2 Ei Ej Ly W Hij Hj c. unfold compute_plain. fold x1 x2. rewrite Ei, Ej. fold (full x (fccont f) sc x1 x2).
  assert (Xs : slice i j x = map (fun k => nth k x 0) (seq i (j - i))) by (apply slice_map; lia). assert (Ys : slice i j y = map (fun k => nth k y 0) (seq i (j - i))) by (apply slice_map; lia).
  assert (Cs := full_slice x (fccont f) sc x1 x2 i j W ltac:(lia) ltac:(lia)). fold c in Cs.
  destruct (slice i j x) as [|x0 xr] eqn:Ex. { exfalso. assert (Z : List.length (map (fun k => nth k x 0) (seq i (j - i))) = 0%nat) by now rewrite <- Xs. rewrite map_length, seq_length in Z. lia. }
  rewrite <- Ex in *. clear x0 xr Ex. rewrite Cs, Xs, Ys. clear Cs Xs Ys.
  assert (match i with O => O | S k => k end = (i - 1)%nat) as -> by (destruct i; lia). assert (match j with O => O | S _ => S j end = S j) as -> by (destruct j; [lia|reflexivity]).
  assert (convolve_valid (slice (i - 1) (S j) x) = Ok (map (width x) (seq i (j - i)))) as ->.
  { rewrite slice_map by lia. replace (S j - (i - 1))%nat with (S (S (j - i))) by lia.
    assert (map (fun k => (nth (k + 2) x 0 - nth k x 0) / 2) (seq (i - 1) (j - i)) = map (width x) (seq i (j - i))) as <-.
    { replace i with (S (i - 1)) at 3 by lia. rewrite <- seq_shift, map_map. apply map_ext. intros k. unfold width, SpecLines.edge. replace (S k + 1 - 1)%nat with (S k) by lia. replace (S k - 1)%nat with k by lia. replace (S k + 1)%nat with (k + 2)%nat by lia. field. }
    rewrite <- (half_steps_map (fun k => nth k x 0)). replace (j - i)%nat with (S (j - i - 1)) by lia. reflexivity. }
  rewrite !bcast_map, map2_map, !total_rsum. f_equal. f_equal.
  unfold AlgModel.mean, AlgModel.rlen. destruct (map c (seq i (j - i))) as [|c0 cr] eqn:Ec. { exfalso. assert (Z : List.length (map c (seq i (j - i))) = 0%nat) by now rewrite Ec. rewrite map_length, seq_length in Z. lia. }
  rewrite <- Ec. now rewrite total_rsum, map_length, seq_length.
Qed.
Lemma bounds x x1 x2 : StronglySorted Rlt x -> (0 < List.length x)%nat -> x1 <= x2 -> nth 0 x 0 < x1 -> x2 <= nth (List.length x - 1) x 0 ->
  let i := searchsorted x x1 in let j := searchsorted x x2 in (1 <= i <= j)%nat /\ (j < List.length x)%nat /\ pixels_in x x1 x2 i j.
Proof.
  intros Hs Hn X12 H1 H2 i j. destruct (searchsorted_spec x x1 Hs) as (L1 & S1). destruct (searchsorted_spec x x2 Hs) as (L2 & S2). fold i j in L1, L2, S1, S2. set (n := List.length x) in *.
  assert (1 <= i)%nat as Hi by (apply (S1 O); auto). assert (j < n)%nat as Hj. { destruct (le_lt_dec n j) as [Q|Q]; [|auto]. exfalso. assert (nth (n - 1) x 0 < x2) by (apply (S2 (n - 1)%nat); lia). lra. }
  assert (i <= j)%nat as Hij. { destruct (le_lt_dec i j) as [|Q]; [auto|]. exfalso. assert (nth j x 0 < x1) as Q1 by (apply (S1 j); [lia|lia]). assert (~ nth j x 0 < x2) as Q2 by (intros Z; apply (S2 j) in Z; lia). lra. }
  split; [lia|]. split; [exact Hj|]. intros k Hk. fold n in Hk. specialize (S1 k Hk). specialize (S2 k Hk). split; [intros (K1 & K2); split; [|apply S2; lia]|intros (K1 & K2)]. { destruct (Rle_dec x1 (nth k x 0)); [auto|]. assert (k < i)%nat by (apply S1; lra). lia. } { split; [|apply S2; lra]. destruct (le_lt_dec i k) as [|Q]; [auto|]. apply S1 in Q. lra. }
Qed.
(** computeFeatureData inside the spectrum, with at least one pixel in the extent *)
Theorem feature_measured x y sc f e : let x1 := Rmin (fst (extent f)) (snd (extent f)) in let x2 := Rmax (fst (extent f)) (snd (extent f)) in
  e <> Tweak -> StronglySorted Rlt x -> List.length y = List.length x -> whole x (fccont f) sc -> nth 0 x 0 < x1 -> x2 <= nth (List.length x - 1) x 0 -> (exists k, (k < List.length x)%nat /\ x1 <= nth k x 0 < x2) ->
  exists i j f', (1 <= i < j)%nat /\ (j < List.length x)%nat /\ pixels_in x x1 x2 i j /\ computeFeatureData x y sc e f = (f', Ok tt) /\ measured x y (continuum_at x (fccont f) sc x1 x2) i j f f'.
Proof.
  intros x1 x2 Ne Hs Ly W H1 H2 (k & Hk & K1 & K2). assert (X12 : x1 <= x2) by lra. destruct (bounds x x1 x2 Hs ltac:(lia) X12 H1 H2) as (Hij & Hj & P). set (i := searchsorted x x1) in *. set (j := searchsorted x x2) in *.
  assert (i < j)%nat by (assert (i <= k < j)%nat by (apply P; auto); lia). assert (C : computeFeatureData x y sc e f = compute_plain x y sc f) by (destruct e; try reflexivity; congruence). rewrite C.
  rewrite (compute_eq x y sc f i j eq_refl eq_refl Ly W ltac:(lia) Hj). fold x1 x2. eexists i, j, _. split; [lia|]. split; [exact Hj|]. split; [exact P|]. split; [reflexivity|]. unfold measured. cbn [extent fccont known center flux ew].
  assert (Nz : INR (j - i) <> 0) by (apply not_0_INR; lia). repeat split; trivial.
  - intros T. unfold quot. destruct (Req_EM_T _ 0); [contradiction|reflexivity].
  - intros T. unfold quot. destruct (Req_EM_T _ 0) as [Z|_]; [|reflexivity]. exfalso. apply T. apply Rmult_eq_reg_r with (/ INR (j - i)); [|now apply Rinv_neq_0_compat]. rewrite Rmult_0_l. exact Z.
  - intros T. unfold quot. rewrite T. destruct (Req_EM_T _ 0) as [_|Z]; [reflexivity|]. exfalso. apply Z. unfold Rdiv. ring.
Qed.
Lemma total_split f i k j : (i <= k <= j)%nat -> total f i j = total f i k + total f k j.
Proof.
  intros H. unfold total. replace (j - i)%nat with ((k - i) + (j - k))%nat by lia. rewrite seq_app, map_app. replace (i + (k - i))%nat with k by lia. induction (map f (seq i (k - i))) as [|a l I]; cbn [app fold_right]; [ring|]. rewrite I. ring.
Qed.
Lemma total_le f g i j : (forall k, (i <= k < j)%nat -> f k <= g k) -> total f i j <= total g i j.
Proof.
  intros H. unfold total. assert (H' : forall k, In k (seq i (j - i)) -> f k <= g k) by (intros k K; apply in_seq in K; apply H; lia). clear H. induction (seq i (j - i)) as [|a l I]; cbn [map fold_right]; [lra|]. assert (f a <= g a) by (apply H'; now left). assert (fold_right Rplus 0 (map f l) <= fold_right Rplus 0 (map g l)) by (apply I; intros; apply H'; now right). lra.
Qed.
Lemma total_scale c f i j : total (fun k => c * f k) i j = c * total f i j.
Proof. unfold total. induction (seq i (j - i)) as [|a l I]; cbn [map fold_right]; [ring|]. rewrite I. ring. Qed.
Lemma total_ext f g i j : (forall k, (i <= k < j)%nat -> f k = g k) -> total f i j = total g i j.
Proof. intros H. apply Rle_antisym; apply total_le; intros k K; rewrite H by exact K; lra. Qed.
Lemma total_nonneg f i j : (forall k, (i <= k < j)%nat -> 0 <= f k) -> 0 <= total f i j.
Proof. intros H. assert (Z : total (fun _ => 0) i j = 0) by (unfold total; induction (seq i (j - i)) as [|q l I]; cbn [map fold_right]; [reflexivity|rewrite I; ring]). rewrite <- Z. apply total_le. exact H. Qed.
(** the centre lies in the extent if no flux is negative (and not all are 0) *)
Theorem center_inside x y sc f e f' : let x1 := Rmin (fst (extent f)) (snd (extent f)) in let x2 := Rmax (fst (extent f)) (snd (extent f)) in
  e <> Tweak -> StronglySorted Rlt x -> List.length y = List.length x -> whole x (fccont f) sc -> nth 0 x 0 < x1 -> x2 <= nth (List.length x - 1) x 0 ->
  List.Forall (fun v => 0 <= v) y -> (exists k, (k < List.length x)%nat /\ x1 <= nth k x 0 < x2 /\ 0 < nth k y 0) ->
  computeFeatureData x y sc e f = (f', Ok tt) -> exists c, get_center f' = Some c /\ x1 <= c < x2.
Proof.
  intros x1 x2 Ne Hs Ly W H1 H2 Py (k & Hk & K1 & K2) C. destruct (feature_measured x y sc f e Ne Hs Ly W H1 H2 (ex_intro _ k (conj Hk K1))) as (i & j & f1 & Hij & Hj & P & C1 & M). rewrite C in C1. injection C1 as <-. destruct M as (_ & _ & _ & Mc & _).
  fold x1 x2 in P. rewrite List.Forall_forall in Py. assert (Nn : forall m, (i <= m < j)%nat -> 0 <= nth m y 0) by (intros m Hm; apply Py, nth_In; lia). assert (Kij : (i <= k < j)%nat) by (apply P; auto).
  set (S := total (fun k => nth k y 0) i j) in *. set (T := total (fun k => nth k y 0 * nth k x 0) i j) in *.
  assert (split3 : forall g, total g i j = total g i k + g k + total g (k + 1) j). { intros g. rewrite (total_split g i k j) by lia. rewrite (total_split g k (k + 1) j) by lia. assert (total g k (k + 1) = g k) as ->; [|ring]. unfold total. replace (k + 1 - k)%nat with 1%nat by lia. cbn [seq map fold_right]. ring. }
  assert (Z : forall a b, (i <= a)%nat -> (b <= j)%nat -> 0 <= total (fun k => nth k y 0) a b). { intros a b Ha Hb. apply total_nonneg. intros m Hm. apply Nn. lia. }
  assert (0 < S). { unfold S. rewrite split3. pose proof (Z i k ltac:(lia) ltac:(lia)). pose proof (Z (k + 1)%nat j ltac:(lia) ltac:(lia)). lra. }
  assert (Hi : x2 * S - T > 0).
  { assert (E : x2 * S - T = total (fun m => nth m y 0 * (x2 - nth m x 0)) i j). { unfold S, T. rewrite <- total_scale. unfold total. induction (seq i (j - i)) as [|q l I]; cbn [map fold_right]; [ring|]. rewrite <- I. ring. }
    rewrite E, split3. assert (G : forall a b, (i <= a)%nat -> (b <= j)%nat -> 0 <= total (fun m => nth m y 0 * (x2 - nth m x 0)) a b). { intros a b Ha Hb. apply total_nonneg. intros m Hm. assert (x1 <= nth m x 0 < x2) by (apply P; lia). apply Rmult_le_pos; [apply Nn; lia|lra]. }
    pose proof (G i k ltac:(lia) ltac:(lia)). pose proof (G (k + 1)%nat j ltac:(lia) ltac:(lia)). assert (0 < nth k y 0 * (x2 - nth k x 0)) by (apply Rmult_lt_0_compat; lra). lra. }
  assert (Lo : x1 * S <= T). { unfold S, T. rewrite <- total_scale. apply total_le. intros m Hm. assert (x1 <= nth m x 0 < x2) by (apply P; lia). rewrite Rmult_comm. apply Rmult_le_compat_l; [apply Nn; lia|lra]. }
  exists (T / S). unfold get_center. rewrite Mc by lra. split; [reflexivity|]. split.
  - apply Rmult_le_reg_r with S; trivial. replace (T / S * S) with T by (field; lra). lra.
  - apply Rmult_lt_reg_r with S; trivial. replace (T / S * S) with T by (field; lra). lra.
Qed.
(** fluxes of adjoining extents add up *)
Theorem flux_additive x y sc fc a b c : fc = FromSpec \/ (exists g, fc = Model g) \/ (exists l, fc = Values l) -> StronglySorted Rlt x -> List.length y = List.length x -> whole x fc sc -> nth 0 x 0 < a -> c <= nth (List.length x - 1) x 0 ->
  (exists k, (k < List.length x)%nat /\ a <= nth k x 0 < b) -> (exists k, (k < List.length x)%nat /\ b <= nth k x 0 < c) ->
  let fl u v := flux (fst (computeFeatureData x y sc Interp (new_feat (u, v) fc))) in fl a c = fl a b + fl b c.
Proof.
  intros Hc Hs Ly W H1 H2 (k & Hk & K1 & K2) (m & Hm & M1 & M2) fl. assert (Lx : (0 < List.length x)%nat) by lia.
  assert (N : forall u v, u <= v -> nth 0 x 0 < u -> v <= nth (List.length x - 1) x 0 -> (searchsorted x u < searchsorted x v)%nat -> fl u v = total (fun q => (nth q y 0 - continuum_at x fc sc 0 0 q) * width x q) (searchsorted x u) (searchsorted x v)).
  { intros u v Huv Hu Hv Hlt. unfold fl. assert (Em : Rmin u v = u /\ Rmax u v = v) by (split; [apply Rmin_left|apply Rmax_right]; trivial). destruct Em as (E1 & E2). cbn [computeFeatureData]. destruct (bounds x u v Hs Lx Huv Hu Hv) as (B1 & B2 & _).
    rewrite (compute_eq x y sc (new_feat (u, v) fc) (searchsorted x u) (searchsorted x v)); cbn [new_feat extent fst snd fccont]; try (rewrite ?E1, ?E2; reflexivity); trivial; [|lia]. cbn [fst flux].
    apply total_ext. intros q _. f_equal. f_equal. destruct Hc as [->|[(g & ->)|(l & ->)]]; reflexivity. }
  destruct (bounds x a b Hs Lx ltac:(lra) H1 ltac:(lra)) as (B1 & B2 & B3). destruct (bounds x b c Hs Lx ltac:(lra) ltac:(lra) H2) as (D1 & D2 & D3).
  assert ((searchsorted x a <= k < searchsorted x b)%nat) by (apply B3; auto). assert ((searchsorted x b <= m < searchsorted x c)%nat) by (apply D3; auto).
  rewrite !N by (lra || lia). rewrite (total_split _ _ (searchsorted x b)) by lia. reflexivity.
Qed.
(** multiplying flux and continuum by a factor multiplies the line flux and leaves centre and equivalent width *)
Definition scaled_cont (k : R) (sc : scontinuum) : scontinuum := match sc with NoCont => NoCont | ContModel g => ContModel (fun t => k * g t) | ContValues l => ContValues (map (Rmult k) l) end.
Lemma quot_scale k a b : k <> 0 -> quot (k * a) (k * b) = quot a b.
Proof. intros K. unfold quot. destruct (Req_EM_T (k * b) 0) as [Z|Z]; destruct (Req_EM_T b 0) as [Q|Q]; trivial. - apply Rmult_integral in Z. destruct Z; contradiction. - exfalso. apply Z. rewrite Q. ring. - f_equal. field. auto. Qed.
Theorem feature_scaled x y sc u v k f : k <> 0 -> StronglySorted Rlt x -> List.length y = List.length x -> whole x FromSpec sc -> u < v -> nth 0 x 0 < u -> v <= nth (List.length x - 1) x 0 ->
  computeFeatureData x y sc Interp (new_feat (u, v) FromSpec) = (f, Ok tt) ->
  computeFeatureData x (map (Rmult k) y) (scaled_cont k sc) Interp (new_feat (u, v) FromSpec) = (Feat (extent f) (fccont f) (center f) (k * flux f) (ew f) (known f), Ok tt).
Proof.
  intros K Hs Ly W Huv H1 H2. cbn [computeFeatureData]. assert (Em : Rmin u v = u /\ Rmax u v = v) by (split; [apply Rmin_left|apply Rmax_right]; lra). destruct Em as (E1 & E2).
  assert (Lx : (0 < List.length x)%nat). { destruct x; [cbn in H1, H2; lra|cbn; lia]. } destruct (bounds x u v Hs Lx ltac:(lra) H1 H2) as (B1 & B2 & B3). set (i := searchsorted x u) in *. set (j := searchsorted x v) in *.
  destruct (le_lt_dec j i) as [Le|Lt].
  - unfold compute_plain. cbn [new_feat extent fst snd]. rewrite E1, E2. fold i j. assert (slice i j x = []) as ->. { unfold slice. replace (j - i)%nat with 0%nat by lia. reflexivity. } discriminate.
  - rewrite (compute_eq x y sc (new_feat (u, v) FromSpec) i j); cbn [new_feat extent fst snd fccont]; rewrite ?E1, ?E2; trivial; [|lia]. intros E. injection E as <-.
    rewrite (compute_eq x (map (Rmult k) y) (scaled_cont k sc) (new_feat (u, v) FromSpec) i j); cbn [new_feat extent fst snd fccont]; rewrite ?E1, ?E2, ?map_length; trivial; [|destruct sc; cbn in *; trivial; now rewrite map_length|lia].
    cbn [extent fccont center flux ew known]. assert (Y : forall q, nth q (map (Rmult k) y) 0 = k * nth q y 0). { intros q. replace 0 with (k * 0) at 1 by ring. apply (map_nth (Rmult k)). }
    assert (C : forall q, continuum_at x FromSpec (scaled_cont k sc) u v q = k * continuum_at x FromSpec sc u v q). { intros q. destruct sc; cbn [scaled_cont continuum_at]; [ring|reflexivity|]. replace 0 with (k * 0) at 1 by ring. apply (map_nth (Rmult k)). }
    assert (T1 : total (fun q => nth q (map (Rmult k) y) 0) i j = k * total (fun q => nth q y 0) i j) by (rewrite <- total_scale; apply total_ext; intros; apply Y).
    assert (T2 : total (fun q => nth q (map (Rmult k) y) 0 * nth q x 0) i j = k * total (fun q => nth q y 0 * nth q x 0) i j) by (rewrite <- total_scale; apply total_ext; intros; rewrite Y; ring).
    assert (T3 : total (fun q => (nth q (map (Rmult k) y) 0 - continuum_at x FromSpec (scaled_cont k sc) u v q) * width x q) i j = k * total (fun q => (nth q y 0 - continuum_at x FromSpec sc u v q) * width x q) i j) by (rewrite <- total_scale; apply total_ext; intros; rewrite Y, C; ring).
    assert (T4 : total (continuum_at x FromSpec (scaled_cont k sc) u v) i j = k * total (continuum_at x FromSpec sc u v) i j) by (rewrite <- total_scale; apply total_ext; intros; apply C).
    rewrite T1, T2, T3, T4. rewrite quot_scale by trivial. unfold Rdiv. rewrite Rmult_assoc, quot_scale by trivial. reflexivity.
Qed.
(** without a continuum there is no equivalent width *)
Theorem no_continuum_refuted x y f f' e : fccont f = FromSpec -> computeFeatureData x y NoCont e f = (f', Ok tt) -> ew f' = None.
Proof.
  assert (P : forall g g', fccont g = FromSpec -> compute_plain x y NoCont g = (g', Ok tt) -> ew g' = None).
  { intros g g' E C. unfold compute_plain in C. rewrite E in C. destruct (slice _ _ x) as [|x0 xs]; [discriminate|]. destruct (convolve_valid _); try discriminate. destruct (bcast Rminus _ _); try discriminate. destruct (bcast Rmult _ _); try discriminate. injection C as <-. cbn [ew].
    assert (Z : forall l : list R, AlgModel.rsum (map (fun _ => 0) l) = 0). { intros l. unfold AlgModel.rsum. induction l as [|q l I]; cbn [map fold_right]; [reflexivity|rewrite I; ring]. }
    unfold AlgModel.mean. cbn [map]. change (0 :: map (fun _ : R => 0) xs) with (map (fun _ : R => 0) (x0 :: xs)). rewrite Z. unfold quot. destruct (Req_EM_T _ 0) as [_|N]; [reflexivity|]. exfalso. apply N. unfold Rdiv. ring. }
  intros E C. destruct e; cbn [computeFeatureData] in C; try (now apply P with f). destruct (nth_error x _); [|discriminate]. destruct (nth_error x _); [|discriminate]. eapply P; [|exact C]. exact E.
Qed.
(** ** The list of features *)
Theorem add_range s lower upper c i : let '(s', r) := addFeatureRange s lower upper c i in
  match r with
  | Ok f => feats s' = feats s ++ [f] /\ fx s' = fx s /\ fy s' = fy s /\ fsc s' = fsc s /\ extent f = (lower, upper) /\ (exists f0, computeFeatureData (fx s) (fy s) (fsc s) Interp (new_feat (lower, upper) c) = (f0, Ok tt) /\ center f = center f0 /\ flux f = flux f0 /\ ew f = ew f0) /\ known f = match i with KnownId n => Some n | _ => None end
  | _ => s' = s
  end.
Proof.
  unfold addFeatureRange. assert (X : forall f o, computeFeatureData (fx s) (fy s) (fsc s) Interp (new_feat (lower, upper) c) = (f, Ok o) -> extent f = (lower, upper) /\ known f = None).
  { intros f o E. cbn [computeFeatureData] in E. unfold compute_plain in E. destruct (slice _ _ (fx s)); [discriminate|]. destruct (convolve_valid _); try discriminate. destruct (bcast Rminus _ _); try discriminate. destruct (bcast Rmult _ _); try discriminate. injection E as <- _. split; reflexivity. }
  destruct (computeFeatureData _ _ _ _ _) as (f, [[]|e|]) eqn:E; trivial. destruct (X f tt eq_refl) as (X1 & X2).
  destruct i; cbn [identify]; trivial.
  - repeat split; trivial. exists f. auto.
  - repeat split; trivial. exists f. auto.
Qed.
(** removeFeatureLocation takes out the feature with the nearest centre and keeps the others in order *)
Definition nearer (a b : option R) : Prop := match a, b with Some u, Some v => u <= v | Some _, None => True | None, None => True | None, Some _ => False end.
Lemma closer_nearer a b : closer a b = true -> nearer a b.
Proof. destruct a, b; cbn; try discriminate; trivial. destruct (Rlt_dec r r0); [intros; lra|discriminate]. Qed.
Lemma not_closer a b : closer a b = false -> nearer b a.
Proof. destruct a, b; cbn; try discriminate; trivial. destruct (Rlt_dec r r0); [discriminate|intros; lra]. Qed.
Lemma nearer_refl a : nearer a a.
Proof. destruct a; cbn; trivial; lra. Qed.
Lemma nearer_trans a b c : nearer a b -> nearer b c -> nearer a c.
Proof. destruct a, b, c; cbn; trivial; try contradiction; lra. Qed.
Lemma first_least_spec l : forall i bi b, let k := first_least i bi b l in
  (k = bi /\ (forall a, In a l -> nearer b a)) \/ (exists j m, k = (i + j)%nat /\ nth_error l j = Some m /\ nearer m b /\ forall a, In a l -> nearer m a).
Proof.
  induction l as [|a l I]; intros i bi b; cbn [first_least]; [left; split; trivial; contradiction|]. destruct (closer a b) eqn:C.
  - apply closer_nearer in C. right. destruct (I (S i) i a) as [(E & A)|(j & m & E & N & Lt & A)].
    + exists 0%nat, a. rewrite E. repeat split; trivial; [lia|]. intros y [<-|Y]; [apply nearer_refl|now apply A].
    + exists (S j), m. rewrite E. repeat split; trivial; [lia|now apply nearer_trans with a|]. intros y [<-|Y]; [exact Lt|now apply A].
  - apply not_closer in C. destruct (I (S i) bi b) as [(E & A)|(j & m & E & N & Lt & A)].
    + left. split; trivial. intros y [<-|Y]; [exact C|now apply A].
    + right. exists (S j), m. rewrite E. repeat split; trivial; [lia|]. intros y [<-|Y]; [now apply nearer_trans with b|now apply A].
Qed.
Theorem remove_location s loc : feats s <> [] -> exists before f after, feats s = before ++ f :: after /\ removeFeatureLocation s loc = (with_feats s (before ++ after), Ok tt) /\
  forall g c, In g (feats s) -> get_center g = Some c -> exists d, get_center f = Some d /\ Rabs (d - loc) <= Rabs (c - loc).
Proof.
  intros N. unfold removeFeatureLocation. destruct (feats s) as [|f0 r] eqn:Es; [congruence|]. cbn [map].
  assert (exists before f after, f0 :: r = before ++ f :: after /\ first_least 1 0 (separation loc f0) (map (separation loc) r) = List.length before /\ forall g, In g (f0 :: r) -> nearer (separation loc f) (separation loc g)) as (before & f & after & E & K & M).
  { destruct (first_least_spec (map (separation loc) r) 1 0 (separation loc f0)) as [(E & A)|(j & m & E & Nj & Lt & A)].
    - exists [], f0, r. rewrite E. repeat split; trivial. intros g [<-|G]; [apply nearer_refl|]. apply A. now apply in_map.
    - rewrite nth_error_map in Nj. destruct (nth_error r j) as [t|] eqn:Et; [|discriminate]. injection Nj as Em. destruct (nth_error_split _ _ Et) as (b & a & Er & Lb). exists (f0 :: b), t, a. rewrite E, Er. repeat split; [cbn [List.length]; lia|]. rewrite <- Er. intros g [<-|G]; rewrite Em; [exact Lt|]. apply A. now apply in_map. }
  exists before, f, after. split; [exact E|]. rewrite K. split.
  - unfold removeSpectralFeature. rewrite Es. assert (L : (List.length before < List.length (f0 :: r))%nat) by (rewrite E, app_length; cbn; lia). set (n := List.length (f0 :: r)) in *. destruct (Z.ltb_spec (Z.of_nat (List.length before)) 0); [lia|]. assert (((0 <=? Z.of_nat (List.length before)) && (Z.of_nat (List.length before) <? Z.of_nat n))%Z = true) as -> by (apply andb_true_iff; split; [apply Z.leb_le|apply Z.ltb_lt]; lia).
    rewrite Nat2Z.id, E. unfold remove_at. rewrite firstn_app, Nat.sub_diag, firstn_all, app_nil_r. rewrite skipn_app, skipn_all2 by lia. replace (S (List.length before) - List.length before)%nat with 1%nat by lia. reflexivity.
  - intros g c G Gc. specialize (M g G). unfold separation in M. rewrite Gc in M. destruct (get_center f) as [d|]; [|contradiction]. exists d. auto.
Qed.
(** a feature that has not been measured is where its extent has its middle *)
Theorem unmeasured_center a b c : exists m, get_center (new_feat (a, b) c) = Some m /\ m - a = b - m.
Proof. exists ((a + b) / 2). split; [reflexivity|lra]. Qed.
Theorem remove_location_none s loc : feats s = [] -> removeFeatureLocation s loc = (s, Raise IndexError).
Proof. intros E. unfold removeFeatureLocation. now rewrite E. Qed.
(** by index, from the front or the end *)
Theorem remove_index s before f after : feats s = before ++ f :: after ->
  removeSpectralFeature s (Index (Z.of_nat (List.length before))) = (with_feats s (before ++ after), Ok tt) /\ removeSpectralFeature s (Index (- Z.of_nat (S (List.length after)))) = (with_feats s (before ++ after), Ok tt).
Proof.
  intros E. unfold removeSpectralFeature. rewrite E. assert (L : List.length (before ++ f :: after) = (List.length before + S (List.length after))%nat) by (now rewrite app_length). rewrite L.
  assert (G : remove_at (List.length before) (before ++ f :: after) = before ++ after). { unfold remove_at. rewrite firstn_app, Nat.sub_diag, firstn_all, app_nil_r. rewrite skipn_app, skipn_all2 by lia. replace (S (List.length before) - List.length before)%nat with 1%nat by lia. reflexivity. } split.
  - destruct (Z.ltb_spec (Z.of_nat (List.length before)) 0); [lia|]. assert (((0 <=? Z.of_nat (List.length before)) && (Z.of_nat (List.length before) <? Z.of_nat (List.length before + S (List.length after))))%Z = true) as -> by (apply andb_true_iff; split; [apply Z.leb_le|apply Z.ltb_lt]; lia). now rewrite Nat2Z.id, G.
  - destruct (Z.ltb_spec (- Z.of_nat (S (List.length after))) 0); [|lia]. replace (- Z.of_nat (S (List.length after)) + Z.of_nat (List.length before + S (List.length after)))%Z with (Z.of_nat (List.length before)) by lia. assert (((0 <=? Z.of_nat (List.length before)) && (Z.of_nat (List.length before) <? Z.of_nat (List.length before + S (List.length after))))%Z = true) as -> by (apply andb_true_iff; split; [apply Z.leb_le|apply Z.ltb_lt]; lia). now rewrite Nat2Z.id, G.
Qed.
Theorem remove_index_bad s i : (i < - Z.of_nat (List.length (feats s)) \/ Z.of_nat (List.length (feats s)) <= i)%Z -> removeSpectralFeature s (Index i) = (s, Raise IndexError).
Proof.
  intros H. unfold removeSpectralFeature. destruct (Z.ltb_spec i 0); [|]; (match goal with |- (if ?b then _ else _) = _ => assert (b = false) as -> end; [apply andb_false_iff; rewrite Z.leb_gt, Z.ltb_ge; lia|reflexivity]).
Qed.
(** by name it never works *)
Theorem remove_name_refuted s n : exists e, removeSpectralFeature s (Name n) = (s, Raise e) /\ (e = TypeError \/ e = AttributeError).
Proof. unfold removeSpectralFeature. destruct (feats s); eexists; split; [reflexivity|now left|reflexivity|now right]. Qed.
(** the features can be set only if there are none *)
Theorem set_features s l : feats s = [] -> setFeatures s (map Some l) = (with_feats s l, Ok tt).
Proof. intros E. unfold setFeatures. rewrite E. assert (all_some (map Some l) = Some l) as ->; [|reflexivity]. induction l as [|a l I]; cbn [map all_some]; [reflexivity|now rewrite I]. Qed.
Theorem set_features_wrong s l : In None l -> setFeatures s l = (s, Raise TypeError).
Proof. intros H. unfold setFeatures. assert (all_some l = None) as ->; [|reflexivity]. induction l as [|[a|] l I]; [contradiction| |reflexivity]. cbn [all_some]. destruct H as [H|H]; [discriminate|]. now rewrite I. Qed.
Theorem replace_features_refuted s l : feats s <> [] -> setFeatures s (map Some l) = (s, Raise TypeError).
Proof. intros E. unfold setFeatures. destruct (all_some (map Some l)); trivial. destruct (feats s); [congruence|reflexivity]. Qed.
(** ** Redshift quality *)
Definition quality (q : Z) (n : string) : Prop := In (q, n) [((-1)%Z, "unknown"%string); (0%Z, "none"%string); (1%Z, "bad"%string); (2%Z, "average"%string); (3%Z, "good"%string); (4%Z, "excellent"%string)].
Lemma quality_cases q n : quality q n -> (q = -1 /\ n = "unknown")%Z%string \/ (q = 0 /\ n = "none")%Z%string \/ (q = 1 /\ n = "bad")%Z%string \/ (q = 2 /\ n = "average")%Z%string \/ (q = 3 /\ n = "good")%Z%string \/ (q = 4 /\ n = "excellent")%Z%string.
Proof. intros [E|[E|[E|[E|[E|[E|[]]]]]]]; injection E as <- <-; tauto. Qed.
Theorem zqual_names q0 q n : quality q n -> setZqual q0 (ZStr n) = (q, Ok tt) /\ setZqual q0 (ZNum (IZR q)) = (q, Ok tt) /\ getZQualStr q = Ok n.
Proof.
  intros H. assert (T : trunc (IZR q) = q). { unfold trunc, FeatModel.rceil. destruct (Rle_dec 0 (IZR q)); [apply rfloor_unique; lra|]. rewrite <- opp_IZR. rewrite (rfloor_unique (IZR (- q)) (- q)) by lra. lia. }
  unfold setZqual. rewrite T. apply quality_cases in H. destruct H as [(-> & ->)|[(-> & ->)|[(-> & ->)|[(-> & ->)|[(-> & ->)|(-> & ->)]]]]]; repeat split; reflexivity.
Qed.
(** other values change nothing *)
Theorem zqual_invalid q0 v : (match v with ZStr s => forall q, ~ quality q s | ZNum r => r <= -2 \/ 5 <= r end) -> setZqual q0 v = (q0, Raise KeyError).
Proof.
  destruct v as [r|s]; intros H; unfold setZqual.
  - assert (T : (trunc r <= -2 \/ 5 <= trunc r)%Z).
    { unfold trunc, FeatModel.rceil. destruct (Rle_dec 0 r) as [P|P].
      - right. destruct H as [H|H]; [lra|]. pose proof (rfloor_spec r) as (_ & F). assert (5 < IZR (rfloor r) + 1) by lra. rewrite <- plus_IZR in H0. apply lt_IZR in H0. lia.
      - left. destruct H as [H|H]; [|lra]. pose proof (rfloor_spec (- r)) as (_ & F). assert (2 < IZR (rfloor (- r)) + 1) by lra. rewrite <- plus_IZR in H0. apply lt_IZR in H0. lia. }
    assert (existsb (fun p => Z.eqb (fst p) (trunc r)) zqmap = false) as ->; [|reflexivity]. unfold zqmap. cbn [existsb fst]. repeat (apply orb_false_iff; split); trivial; apply Z.eqb_neq; lia.
  - destruct (find _ zqmap) as [p|] eqn:F; [|reflexivity]. exfalso. apply find_some in F. destruct F as (I & E). apply String.eqb_eq in E. destruct p as (q, n). cbn [snd] in E. subst n. exact (H q I).
Qed.
(** whatever is assigned, getZQualStr works *)
Theorem zqual_always q0 n0 vs : quality q0 n0 -> exists n, getZQualStr (fold_left (fun q v => fst (setZqual q v)) vs q0) = Ok n /\ quality (fold_left (fun q v => fst (setZqual q v)) vs q0) n.
Proof.
  revert q0 n0. induction vs as [|v vs I]; intros q0 n0 H; cbn [fold_left]; [exists n0; split; trivial; now apply (zqual_names q0)|].
  assert (exists n, quality (fst (setZqual q0 v)) n) as (n & Q); [|now apply I with n]. destruct v as [r|s]; unfold setZqual.
  - destruct (existsb _ zqmap) eqn:E; [|now exists n0]. apply existsb_exists in E. destruct E as ((q, n) & In1 & Eq). apply Z.eqb_eq in Eq. cbn [fst] in *. subst q. exists n. exact In1.
  - destruct (find _ zqmap) as [p|] eqn:F; [|now exists n0]. apply find_some in F. destruct F as (I1 & E). exists (snd p). destruct p. exact I1.
Qed.
(** ** addFeatureLocation with a continuum *)
Lemma sorted_nth x p q : StronglySorted Rlt x -> (p < q)%nat -> (q < List.length x)%nat -> nth p x 0 < nth q x 0.
Proof. intros Hs. revert p q. induction Hs as [|h t S I F]; intros [|p] [|q] P Q; cbn [List.length] in Q; try lia; cbn [nth]. - rewrite List.Forall_forall in F. apply F, nth_In. lia. - apply I; lia. Qed.
Lemma non_zero_in d i : In i (non_zero d) <-> (i < List.length d)%nat /\ nth i d 0 <> 0.
Proof. unfold non_zero. rewrite filter_In, in_seq. destruct (Req_EM_T (nth i d 0) 0); split; intros (A & B); split; trivial; try lia; try discriminate; contradiction. Qed.
Lemma non_zero_sorted d : StronglySorted lt (non_zero d).
Proof.
  unfold non_zero. generalize 0%nat as k. generalize (List.length d) as n. induction n as [|n I]; intros k; cbn [seq filter]; [constructor|]. destruct (Req_EM_T (nth k d 0) 0); [apply I|]. constructor; [apply I|]. apply List.Forall_forall. intros j J. apply filter_In in J. destruct J as (J & _). apply in_seq in J. lia.
Qed.
Lemma last_below_spec c l : StronglySorted lt l -> match last_below c l with Some a => In a l /\ INR a < c /\ forall i, In i l -> INR i < c -> (i <= a)%nat | None => forall i, In i l -> ~ INR i < c end.
Proof.
  intros S. unfold last_below. enough (G : forall b : option nat, (match b with Some a => INR a < c /\ (forall i, In i l -> (a <= i)%nat) | None => True end) -> match fold_left (fun b i => if Rlt_dec (INR i) c then Some i else b) l b with Some a => (In a l \/ b = Some a) /\ INR a < c /\ forall i, In i l -> INR i < c -> (i <= a)%nat | None => b = None /\ forall i, In i l -> ~ INR i < c end).
  { specialize (G None I). destruct (fold_left _ l None) as [a|]; [|tauto]. destruct G as ([A|A] & B); [auto|discriminate]. }
  induction S as [|i l S IH F]; intros b B; cbn [fold_left].
  - destruct b as [a|]; [|split; trivial; contradiction]. destruct B as (B & _). split; [now right|]. split; trivial. intros i [].
  - rewrite List.Forall_forall in F. destruct (Rlt_dec (INR i) c) as [L|L].
    + specialize (IH (Some i)). cbn beta iota in IH. assert (P : INR i < c /\ (forall j, In j l -> (i <= j)%nat)) by (split; trivial; intros j J; specialize (F j J); lia). specialize (IH P). destruct (fold_left _ l (Some i)) as [a|]; [|destruct IH; discriminate]. destruct IH as (A & A1 & A2). split; [left; destruct A as [A|A]; [now right|injection A as ->; now left]|]. split; trivial. intros j [<-|J] Hj; [|now apply A2]. destruct A as [A|A]; [specialize (F a A); lia|injection A as ->; lia].
    + specialize (IH b). assert (P : match b with Some a => INR a < c /\ (forall j, In j l -> (a <= j)%nat) | None => True end). { destruct b; trivial. destruct B as (B1 & B2). split; trivial. intros j J. apply B2. now right. } specialize (IH P). destruct (fold_left _ l b) as [a|].
      * destruct IH as (A & A1 & A2). split; [destruct A as [A|A]; [left; now right|now right]|]. split; trivial. intros j [<-|J] Hj; [contradiction|now apply A2].
      * destruct IH as (A & A1). split; trivial. intros j [<-|J]; [trivial|now apply A1].
Qed.
Lemma first_above_spec c l : StronglySorted lt l -> match first_above c l with Some a => In a l /\ c < INR a /\ forall i, In i l -> c < INR i -> (a <= i)%nat | None => forall i, In i l -> ~ c < INR i end.
Proof.
  intros S. induction S as [|i l S IH F]; cbn [first_above]; [intros i []|]. rewrite List.Forall_forall in F. destruct (Rlt_dec c (INR i)) as [L|L].
  - split; [now left|]. split; trivial. intros j [<-|J] _; [lia|]. specialize (F j J). lia.
  - destruct (first_above c l) as [a|].
    + destruct IH as (A & A1 & A2). split; [now right|]. split; trivial. intros j [<-|J] Hj; [contradiction|now apply A2].
    + intros j [<-|J]; [trivial|now apply IH].
Qed.
Lemma slice_nth (i j k : nat) (l : list R) : (k < List.length (slice i j l))%nat -> nth k (slice i j l) 0 = nth (i + k) l 0 /\ (i + k < List.length l)%nat /\ (i + k < j)%nat.
Proof.
  unfold slice. intros H. rewrite firstn_length, skipn_length in H. split; [|lia]. assert (K : (k < j - i)%nat) by lia. clear H. revert i k K. intros i k K.
  assert (F : nth k (firstn (j - i) (skipn i l)) 0 = nth k (skipn i l) 0). { generalize (skipn i l). intros q. clear -K. revert k K. generalize (j - i)%nat as n. induction q as [|a q I]; intros n k K; destruct n, k; trivial; try lia. cbn [firstn nth]. apply I. lia. }
  rewrite F. clear. revert l. induction i as [|i I]; intros l; [reflexivity|]. destruct l as [|a l]; [destruct k; reflexivity|]. cbn [skipn Nat.add nth]. apply I.
Qed.
Lemma slice_len {A} i j (l : list A) : List.length (slice i j l) = Nat.min (j - i) (List.length l - i).
Proof. unfold slice. now rewrite firstn_length, skipn_length. Qed.
Definition cont_at (x : list R) (sc : scontinuum) (k : nat) : R := match sc with NoCont => 0 | ContModel g => g (nth k x 0) | ContValues l => nth k l 0 end.
Definition whole_cont (x : list R) (sc : scontinuum) : Prop := match sc with ContValues l => List.length l = List.length x | ContModel _ => True | NoCont => False end.
Definition window_of (n : nat) (xi : R) (window : option R) : Z * Z * R := match window with
    | Some w => let wl := rfloor (xi - w / 2) in let wu := rceil (xi + w / 2) in let c := IZR (wu - wl) / 2 in if (wl <? 0)%Z then (0%Z, wu, c + IZR wl) else (wl, wu, c)
    | None => (0%Z, Z.of_nat n, (INR n - 1) / 2) end.
Definition part_cont (sc : scontinuum) (wl wu : Z) (x : list R) : list R := match sc with ContModel g => map g (zslice wl wu x) | ContValues l => zslice wl wu l | NoCont => [] end.
Lemma location_eq s loc window : whole_cont (fx s) (fsc s) -> List.length (fy s) = List.length (fx s) ->
  exists wl wu c d, window_of (List.length (fx s)) (interp loc (combine (fx s) (map INR (seq 0 (List.length (fx s)))))) window = (wl, wu, c) /\ List.length d = List.length (zslice wl wu (fx s)) /\
  List.length (part_cont (fsc s) wl wu (fx s)) = List.length d /\
  (forall k, (k < List.length d)%nat -> nth k d 0 = nth (Z.to_nat wl + k) (fy s) 0 - cont_at (fx s) (fsc s) (Z.to_nat wl + k)) /\
  addFeatureLocation s loc window = match last_below c (non_zero d), first_above c (non_zero d) with Some a, Some b => addFeatureRange s (nth a (zslice wl wu (fx s)) 0) (nth b (zslice wl wu (fx s)) 0) (Values (part_cont (fsc s) wl wu (fx s))) NoId | _, _ => (s, Raise IndexError) end.
Proof.
  intros W Ly. unfold addFeatureLocation. set (xi := interp loc _). fold (window_of (List.length (fx s)) xi window). destruct (window_of (List.length (fx s)) xi window) as ((wl, wu), c) eqn:Ew.
  exists wl, wu, c. set (x := fx s) in *. set (i := Z.to_nat wl). set (j := Z.to_nat wu). change (zslice wl wu x) with (slice i j x). change (zslice wl wu (fy s)) with (slice i j (fy s)).
  assert (B : forall l, List.length l = List.length (slice i j (fy s)) -> bcast Rminus (slice i j (fy s)) l = Ok (map2 Rminus (slice i j (fy s)) l)). { intros l L. unfold bcast. now rewrite L, Nat.eqb_refl. }
  assert (N : forall l k, List.length l = List.length (slice i j (fy s)) -> (k < List.length l)%nat -> nth k (map2 Rminus (slice i j (fy s)) l) 0 = nth k (slice i j (fy s)) 0 - nth k l 0).
  { intros l k L K. clear B. revert l k L K. induction (slice i j (fy s)) as [|u q I]; intros [|v l] [|k] L K; try discriminate; cbn [List.length] in K; try lia; trivial. unfold map2 in *. cbn [combine map nth]. apply I; [now injection L|lia]. }
  assert (Lx : List.length (slice i j x) = List.length (slice i j (fy s))) by (rewrite !slice_len, Ly; reflexivity).
  assert (Lm : forall l, List.length l = List.length (slice i j (fy s)) -> List.length (map2 Rminus (slice i j (fy s)) l) = List.length (slice i j (fy s))). { intros l L. unfold map2. rewrite map_length, combine_length, L. lia. }
  destruct (fsc s) as [|g|l] eqn:Es; cbn [whole_cont] in W; [contradiction| |]; cbn [part_cont].
  - change (zslice wl wu x) with (slice i j x). assert (L : List.length (map g (slice i j x)) = List.length (slice i j (fy s))) by (rewrite map_length; exact Lx). exists (map2 Rminus (slice i j (fy s)) (map g (slice i j x))). rewrite Lm by exact L. split; [reflexivity|]. split; [congruence|]. split; [exact L|]. rewrite B by exact L. split; [|reflexivity].
    intros k K. rewrite N by (lia || exact L). destruct (slice_nth i j k (fy s) K) as (-> & _). rewrite (nth_indep (map g _) 0 (g 0)) by lia. rewrite map_nth. destruct (slice_nth i j k x ltac:(lia)) as (-> & _). reflexivity.
  - change (zslice wl wu l) with (slice i j l). assert (L : List.length (slice i j l) = List.length (slice i j (fy s))) by (rewrite !slice_len, Ly, W; reflexivity). exists (map2 Rminus (slice i j (fy s)) (slice i j l)). rewrite Lm by exact L. split; [reflexivity|]. split; [congruence|]. split; [exact L|]. rewrite B by exact L. split; [|reflexivity].
    intros k K. rewrite N by (lia || exact L). destruct (slice_nth i j k (fy s) K) as (-> & _). destruct (slice_nth i j k l ltac:(lia)) as (-> & _). reflexivity.
Qed.
(** the edges are the nearest pixels on both sides that are NOT on the continuum *)
Theorem location_edges s loc window s' f : whole_cont (fx s) (fsc s) -> List.length (fy s) = List.length (fx s) -> addFeatureLocation s loc window = (s', Ok f) ->
  exists (p q : nat) (c : R), (q < List.length (fx s))%nat /\ extent f = (nth p (fx s) 0, nth q (fx s) 0) /\ INR p < c < INR q /\ nth p (fy s) 0 <> cont_at (fx s) (fsc s) p /\ nth q (fy s) 0 <> cont_at (fx s) (fsc s) q /\
    (forall m, (p < m < q)%nat -> INR m <> c -> nth m (fy s) 0 = cont_at (fx s) (fsc s) m) /\ feats s' = feats s ++ [f].
Proof.
  intros W Ly E. destruct (location_eq s loc window W Ly) as (wl & wu & c & d & _ & Ld & Lp & Nd & Eq). rewrite Eq in E. pose proof (last_below_spec c _ (non_zero_sorted d)) as La. pose proof (first_above_spec c _ (non_zero_sorted d)) as Fa.
  destruct (last_below c (non_zero d)) as [a|]; [|discriminate]. destruct (first_above c (non_zero d)) as [b|]; [|discriminate]. destruct La as (Ia & Ca & Ma). destruct Fa as (Ib & Cb & Mb). apply non_zero_in in Ia. apply non_zero_in in Ib. destruct Ia as (Ha & Za). destruct Ib as (Hb & Zb).
  pose proof (add_range s (nth a (zslice wl wu (fx s)) 0) (nth b (zslice wl wu (fx s)) 0) (Values (part_cont (fsc s) wl wu (fx s))) NoId) as A. rewrite E in A. destruct A as (A1 & _ & _ & _ & A2 & _).
  set (i := Z.to_nat wl) in *. exists (i + a)%nat, (i + b)%nat, (INR i + c). rewrite Nd in Za, Zb by trivial. unfold zslice in A2, Ld. fold i in A2, Ld. destruct (slice_nth i (Z.to_nat wu) a (fx s) ltac:(lia)) as (Ea & _ & _). destruct (slice_nth i (Z.to_nat wu) b (fx s) ltac:(lia)) as (Eb & Lb & _). rewrite Ea, Eb in A2.
  split; [exact Lb|]. split; [exact A2|]. rewrite !plus_INR. split; [lra|]. split; [intros Q; apply Za; rewrite Q; ring|]. split; [intros Q; apply Zb; rewrite Q; ring|]. split; [|exact A1].
  intros m Hm Nc. set (k := (m - i)%nat). assert (Em : m = (i + k)%nat) by (unfold k; lia). assert (Hk : (k < List.length d)%nat) by lia. destruct (Req_dec (nth m (fy s) 0) (cont_at (fx s) (fsc s) m)) as [|Ne]; trivial. exfalso.
  assert (Ik : In k (non_zero d)). { apply non_zero_in. split; trivial. rewrite Nd by trivial. rewrite <- Em. intros Z. apply Ne. lra. }
  rewrite Em, plus_INR in Nc. destruct (Rtotal_order (INR k) c) as [Lt|[Eq'|Gt]]; [|apply Nc; now rewrite Eq'|]. - specialize (Ma k Ik Lt). lia. - specialize (Mb k Ik Gt). lia.
Qed.
(** so a line standing above (or below) the continuum gets at most one pixel between its edges *)
Theorem location_narrow_refuted s loc window s' f : whole_cont (fx s) (fsc s) -> List.length (fy s) = List.length (fx s) -> (forall k, (k < List.length (fx s))%nat -> nth k (fy s) 0 <> cont_at (fx s) (fsc s) k) -> addFeatureLocation s loc window = (s', Ok f) ->
  exists p : nat, extent f = (nth p (fx s) 0, nth (p + 1) (fx s) 0) \/ extent f = (nth p (fx s) 0, nth (p + 2) (fx s) 0).
Proof.
  intros W Ly A E. destruct (location_edges s loc window s' f W Ly E) as (p & q & c & Hq & Ex & (P & Q) & _ & _ & M & _). exists p. assert (p < q)%nat by (apply INR_lt; lra). assert (G : forall m, (p < m < q)%nat -> INR m = c). { intros m Hm. destruct (Req_dec (INR m) c); trivial. exfalso. apply (A m); [lia|]. now apply M. }
  destruct (Nat.eq_dec q (p + 1)) as [->|N1]; [now left|]. destruct (Nat.eq_dec q (p + 2)) as [->|N2]; [now right|]. exfalso. assert (E1 : INR (p + 1) = c) by (apply G; lia). assert (E2 : INR (p + 2) = c) by (apply G; lia). rewrite <- E2 in E1. apply INR_eq in E1. lia.
Qed.
(** and in a window away from the start of the spectrum an array continuum is cut to the window twice: the flux is 0 and the equivalent width not a number, or ValueError *)
Theorem location_continuum_refuted s loc w l : fsc s = ContValues l -> List.length l = List.length (fx s) -> List.length (fy s) = List.length (fx s) -> StronglySorted Rlt (fx s) ->
  let xi := interp loc (combine (fx s) (map INR (seq 0 (List.length (fx s))))) in 0 <= w -> 3 * w / 2 + 3 <= xi ->
  match addFeatureLocation s loc (Some w) with (_, Ok f) => flux f = 0 /\ ew f = None | (_, Raise e) => e = ValueError \/ e = IndexError | (_, OutOfFuel) => False end.
Proof.
  intros Es Ll Ly Hs xi Hw Hx. assert (W : whole_cont (fx s) (fsc s)) by now rewrite Es. destruct (location_eq s loc (Some w) W Ly) as (wl & wu & c & d & Ew & Ld & Lp & Nd & Eq). fold xi in Ew. rewrite Eq.
  assert (Hwl : (0 <= wl)%Z /\ (wu - wl <= wl)%Z).
  { cbn [window_of] in Ew. pose proof (rfloor_spec (xi - w / 2)) as F1. pose proof (rfloor_spec (- (xi + w / 2))) as F2. assert (F3 : IZR (rceil (xi + w / 2)) < xi + w / 2 + 1) by (unfold rceil; rewrite opp_IZR; lra). set (u := rfloor (xi - w / 2)) in *. set (v := rceil (xi + w / 2)) in *.
    destruct (Z.ltb_spec u 0) as [N|N]; [exfalso; apply IZR_lt in N; lra|]. injection Ew as <- <- _. split; [exact N|]. apply le_IZR. rewrite minus_IZR. lra. }
  pose proof (last_below_spec c _ (non_zero_sorted d)) as La. pose proof (first_above_spec c _ (non_zero_sorted d)) as Fa. destruct (last_below c (non_zero d)) as [a|]; [|now right]. destruct (first_above c (non_zero d)) as [b|]; [|now right].
  destruct La as (Ia & Ca & _). destruct Fa as (Ib & Cb & _). apply non_zero_in in Ia. apply non_zero_in in Ib. destruct Ia as (Ha & _). destruct Ib as (Hb & _). assert (Hab : (a < b)%nat) by (apply INR_lt; lra).
  set (i := Z.to_nat wl) in *. unfold zslice in *. fold i in Ld |- *. destruct (slice_nth i (Z.to_nat wu) a (fx s) ltac:(lia)) as (Ea & La & _). destruct (slice_nth i (Z.to_nat wu) b (fx s) ltac:(lia)) as (Eb & Lb & _). rewrite Ea, Eb.
  assert (Lc : (List.length (part_cont (fsc s) wl wu (fx s)) <= i)%nat). { rewrite Lp, Ld, slice_len. unfold i in *. lia. } set (pc := part_cont (fsc s) wl wu (fx s)) in *.
  set (x1 := nth (i + a) (fx s) 0). set (x2 := nth (i + b) (fx s) 0). assert (X12 : x1 < x2). { unfold x1, x2. apply sorted_nth; trivial. lia. }
  unfold addFeatureRange. cbn [computeFeatureData]. unfold compute_plain. cbn [new_feat extent fst snd fccont]. rewrite Rmin_left, Rmax_right by lra.
  assert (I1 : (i <= searchsorted (fx s) x1)%nat). { destruct (searchsorted_spec (fx s) x1 Hs) as (L1 & S1). destruct (le_lt_dec i (searchsorted (fx s) x1)) as [|Q]; trivial. exfalso. assert (~ nth (searchsorted (fx s) x1) (fx s) 0 < x1) as Q1 by (intros Z; apply S1 in Z; lia). apply Q1. unfold x1.
    apply sorted_nth; trivial. fold x1. lia. }
  set (i1 := searchsorted (fx s) x1) in *. set (i2 := searchsorted (fx s) x2). destruct (slice i1 i2 (fx s)) as [|x0 xr] eqn:Exs; [now right|]. assert (Sc : slice i1 i2 pc = []). { unfold slice. rewrite skipn_all2 by lia. now destruct (i2 - i1)%nat. } rewrite Sc.
  assert (Lys : List.length (slice i1 i2 (fy s)) = S (List.length xr)). { transitivity (List.length (slice i1 i2 (fx s))); [rewrite !slice_len, Ly; reflexivity|now rewrite Exs]. }
  destruct (convolve_valid _) as [dx|e|] eqn:Ecv.
  - unfold bcast at 1. rewrite Lys. cbn [List.length Nat.eqb]. destruct (slice i1 i2 (fy s)) as [|y0 [|y1 yr]]; [now left| |now left]. cbn [map]. unfold bcast. destruct dx as [|d0 [|d1 dr]]; cbn [List.length Nat.eqb map AlgModel.mean]; [| |now left]; cbn [identify]; split; reflexivity.
  - left. unfold convolve_valid in Ecv. match type of Ecv with match ?l with _ => _ end = _ => destruct l as [|q [|q1 [|q2 qr]]] end; congruence.
  - unfold convolve_valid in Ecv. match type of Ecv with match ?l with _ => _ end = _ => destruct l as [|q [|q1 [|q2 qr]]] end; discriminate.
Qed.
Example feature_witness : let x := [1; 2; 3; 4] in let f := new_feat (15/10, 25/10) FromSpec in StronglySorted Rlt x /\ nth 0 x 0 < Rmin (fst (extent f)) (snd (extent f)) /\ Rmax (fst (extent f)) (snd (extent f)) <= nth 3 x 0 /\ exists k, (k < 4)%nat /\ Rmin (fst (extent f)) (snd (extent f)) <= nth k x 0 < Rmax (fst (extent f)) (snd (extent f)).
Proof. cbv zeta. cbn [new_feat extent fst snd nth]. rewrite Rmin_left, Rmax_right by lra. split; [repeat constructor; lra|]. split; [lra|]. split; [lra|]. exists 1%nat. cbn. split; [lia|lra]. Qed.
