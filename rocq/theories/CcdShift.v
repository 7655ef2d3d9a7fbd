(** * CcdShift: aligning shifted images while combining them (C89) *)
From Coq Require Import Reals ZArith List Bool Arith Lia Lra Psatz Permutation Sorted.
From Verif Require Import PyBase AlgModel AlgClip CcdModel CcdRegion CcdEdit CcdClip CcdProcModel CcdBias CcdCombine.
Import ListNotations.
Open Scope R_scope.

(** ** Specification *)
(** the image [a] of shape (n,m) shows the scene displaced by the shift [s] *)
Definition sees (scene : Z -> Z -> R) (n m : nat) (a : arr) (s : Z * Z) : Prop :=
  nx a = n /\ ny a = m /\ forall i j, pixel n m i j -> px a i j = scene (Z.of_nat i + fst s)%Z (Z.of_nat j + snd s)%Z.
(** position (i,j) is covered by all images once shifted *)
Definition overlap (n m : nat) (shifts : list (Z * Z)) (i j : nat) : Prop :=
  forall s, In s shifts -> (0 <= Z.of_nat i - fst s < Z.of_nat n)%Z /\ (0 <= Z.of_nat j - snd s < Z.of_nat m)%Z.

(** ** Lemmas *)
Lemma moved_sees scene n m a s i j : sees scene n m a s -> (0 <= Z.of_nat i - fst s < Z.of_nat n)%Z -> (0 <= Z.of_nat j - snd s < Z.of_nat m)%Z ->
  px (moved a s) i j = scene (Z.of_nat i) (Z.of_nat j).
Proof.
  intros (X & Y & P) I' J. unfold moved. cbn [px]. rewrite X, Y.
  replace ((0 <=? Z.of_nat i - fst s)%Z && (Z.of_nat i - fst s <? Z.of_nat n)%Z && (0 <=? Z.of_nat j - snd s)%Z && (Z.of_nat j - snd s <? Z.of_nat m)%Z) with true.
  - rewrite P by (split; lia). f_equal; lia.
  - symmetry. rewrite !andb_true_iff, !Z.leb_le, !Z.ltb_lt. lia.
Qed.
Lemma moved_values scene n m ims shifts i j : Forall2 (sees scene n m) ims shifts -> overlap n m shifts i j ->
  values (map2 moved ims shifts) i j = repeat (scene (Z.of_nat i) (Z.of_nat j)) (length ims).
Proof.
  unfold values, map2. induction 1 as [|a s ims shifts A H IH]; intros O; [reflexivity|]. cbn [combine map length repeat fst snd].
  destruct (O s ltac:(now left)) as (O1 & O2). rewrite (moved_sees scene n m a s i j A O1 O2). f_equal. apply IH. intros s' I'. apply O. now right.
Qed.
Lemma op_repeat k x c : In k [KMean; KMedian; KMin; KMax] -> pixel_op k (repeat x (S c)) = Some x.
Proof.
  intros K. assert (N : repeat x (S c) <> []) by discriminate.
  assert (B : forall z, In z (repeat x (S c)) -> x <= z <= x) by (intros z Z; apply repeat_spec in Z; lra).
  destruct K as [<-|[<-|[<-|[<-|[]]]]]; cbn [pixel_op].
  - destruct (average_some HMean _ N) as (v & V). cbn [average] in V. rewrite V. f_equal. pose proof (mean_in _ x x v B V). lra.
  - destruct (average_some HMedian _ N) as (v & V). cbn [average] in V. rewrite V. f_equal. pose proof (median_in _ x x v B V). lra.
  - destruct (average_some HMin _ N) as (v & V). cbn [average] in V. rewrite V. f_equal. pose proof (B v (proj1 (amin_spec _ _ V))). lra.
  - destruct (average_some HMax _ N) as (v & V). cbn [average] in V. rewrite V. f_equal. pose proof (B v (proj1 (amax_spec _ _ V))). lra.
Qed.
Lemma f2_length {A B} (P : A -> B -> Prop) l k : Forall2 P l k -> length l = length k.
Proof. induction 1; cbn [length]; congruence. Qed.
Lemma sees_shape scene n m ims shifts : Forall2 (sees scene n m) ims shifts -> same_shape n m ims.
Proof. induction 1 as [|a s ims shifts (X & Y & _) H IH]; intros b B; [contradiction|]. destruct B as [<-|B]; auto. Qed.
Lemma combine_moved k t scene n m ims shifts : In k [KMean; KMedian; KMin; KMax] -> ims <> [] -> Forall2 (sees scene n m) ims shifts ->
  exists r, r_nx r = n /\ r_ny r = m /\ (forall i j, overlap n m shifts i j -> r_px r i j = Some (scene (Z.of_nat i) (Z.of_nat j))) /\
    combineImages k None shifts t ims = inl (if t then rsub r (zmax (map snd shifts), (Z.of_nat n - zmin (map snd shifts))%Z, zmax (map fst shifts), (Z.of_nat m - zmin (map fst shifts))%Z) else r).
Proof.
  intros K N F. pose proof (f2_length _ _ _ F) as LE. pose proof (sees_shape _ _ _ _ _ F) as S.
  destruct ims as [|a q] eqn:IE; [congruence|]. destruct shifts as [|s ss] eqn:SE; [discriminate LE|]. rewrite <- IE, <- SE in *.
  destruct (S a) as (X & Y); [rewrite IE; now left|].
  exists (Result n m (fun i j => pixel_op k (used k None (values (map2 moved ims shifts) i j)))). cbn [r_nx r_ny]. split; [reflexivity|]. split; [reflexivity|]. split.
  - intros i j O. cbn [r_px]. rewrite (moved_values scene n m ims shifts i j F O). replace (length ims) with (Datatypes.S (length q)) by now rewrite IE.
    replace (used k None (repeat (scene (Z.of_nat i) (Z.of_nat j)) (Datatypes.S (length q)))) with (repeat (scene (Z.of_nat i) (Z.of_nat j)) (Datatypes.S (length q))) by (destruct k; reflexivity).
    now apply op_repeat.
  - unfold combineImages. rewrite IE. rewrite <- IE. rewrite (agree_all n m ims a S) by (rewrite IE; now left). cbn [negb].
    unfold shifted. rewrite SE. rewrite <- SE. rewrite <- LE, Nat.leb_refl.
    assert (W : weights_fit k (length ims) = true) by (destruct K as [<-|[<-|[<-|[<-|[]]]]]; reflexivity). rewrite W. cbn [negb]. rewrite X, Y.
    destruct K as [<-|[<-|[<-|[<-|[]]]]]; destruct t; reflexivity.
Qed.
Lemma zmax_spec l M : In M l -> (forall x, In x l -> (x <= M)%Z) -> zmax l = M.
Proof.
  intros I' H. destruct l as [|x r]; [contradiction|]. cbn [zmax].
  assert (U : (fold_right Z.max x r <= M)%Z).
  { assert (x <= M)%Z by (apply H; now left). assert (HR : forall y, In y r -> (y <= M)%Z) by (intros y Y; apply H; now right). clear H I'. induction r as [|y r IH]; cbn [fold_right]; [assumption|].
    pose proof (HR y ltac:(now left)). assert (fold_right Z.max x r <= M)%Z by (apply IH; intros z Z'; apply HR; now right). lia. }
  assert (L : (M <= fold_right Z.max x r)%Z); [|lia].
  clear U H. destruct I' as [->|I']; induction r as [|y r IH]; cbn [fold_right]; try lia; try contradiction. destruct I' as [->|I']; [lia|]. specialize (IH I'). lia.
Qed.
Lemma zmin_spec l M : In M l -> (forall x, In x l -> (M <= x)%Z) -> zmin l = M.
Proof.
  intros I' H. destruct l as [|x r]; [contradiction|]. cbn [zmin].
  assert (U : (M <= fold_right Z.min x r)%Z).
  { assert (M <= x)%Z by (apply H; now left). assert (HR : forall y, In y r -> (M <= y)%Z) by (intros y Y; apply H; now right). clear H I'. induction r as [|y r IH]; cbn [fold_right]; [assumption|].
    pose proof (HR y ltac:(now left)). assert (M <= fold_right Z.min x r)%Z by (apply IH; intros z Z'; apply HR; now right). lia. }
  assert (L : (fold_right Z.min x r <= M)%Z); [|lia].
  clear U H. destruct I' as [->|I']; induction r as [|y r IH]; cbn [fold_right]; try lia; try contradiction. destruct I' as [->|I']; [lia|]. specialize (IH I'). lia.
Qed.

(** ** C89 *)
(** Images of one scene, each displaced by a whole number of pixels along each axis, combined with those shifts and
    not trimmed: wherever all images overlap, the result is the scene. *)
Theorem C89_aligned k scene n m ims shifts : In k [KMean; KMedian; KMin; KMax] -> ims <> [] -> Forall2 (sees scene n m) ims shifts ->
  exists r, combineImages k None shifts false ims = inl r /\ r_nx r = n /\ r_ny r = m /\
    forall i j, overlap n m shifts i j -> r_px r i j = Some (scene (Z.of_nat i) (Z.of_nat j)).
Proof. intros K N F. destruct (combine_moved k false scene n m ims shifts K N F) as (r & X & Y & P & E). exists r. auto. Qed.
(** Trimmed, when the smallest shift is 0 and the largest is the same along both axes: the result is the scene on
    exactly the positions that all images cover. *)
Theorem C89_trimmed k scene n m ims shifts (M : nat) : In k [KMean; KMedian; KMin; KMax] -> Forall2 (sees scene n m) ims shifts -> (M <= n)%nat -> (M <= m)%nat ->
  (forall s, In s shifts -> (0 <= fst s <= Z.of_nat M)%Z /\ (0 <= snd s <= Z.of_nat M)%Z) ->
  (exists s, In s shifts /\ fst s = 0%Z) -> (exists s, In s shifts /\ snd s = 0%Z) -> (exists s, In s shifts /\ fst s = Z.of_nat M) -> (exists s, In s shifts /\ snd s = Z.of_nat M) ->
  exists r, combineImages k None shifts true ims = inl r /\ r_nx r = (n - M)%nat /\ r_ny r = (m - M)%nat /\
    (forall i j, pixel (n - M) (m - M) i j -> r_px r i j = Some (scene (Z.of_nat (M + i)) (Z.of_nat (M + j)))) /\
    (forall x y, pixel n m x y -> (overlap n m shifts x y <-> (M <= x)%nat /\ (M <= y)%nat)).
Proof.
  intros K F Mn Mm B (z1 & I1 & Z1) (z2 & I2 & Z2) (z3 & I3 & Z3) (z4 & I4 & Z4).
  assert (N : ims <> []) by (intros ->; inversion F; subst; contradiction).
  destruct (combine_moved k true scene n m ims shifts K N F) as (r & X & Y & P & E).
  assert (Q1 : zmax (map snd shifts) = Z.of_nat M) by (apply zmax_spec; [rewrite <- Z4; now apply in_map|]; intros x Hx; apply in_map_iff in Hx; destruct Hx as (s & <- & Is); apply B in Is; lia).
  assert (Q2 : zmax (map fst shifts) = Z.of_nat M) by (apply zmax_spec; [rewrite <- Z3; now apply in_map|]; intros x Hx; apply in_map_iff in Hx; destruct Hx as (s & <- & Is); apply B in Is; lia).
  assert (Q3 : zmin (map snd shifts) = 0%Z) by (apply zmin_spec; [rewrite <- Z2; now apply in_map|]; intros x Hx; apply in_map_iff in Hx; destruct Hx as (s & <- & Is); apply B in Is; lia).
  assert (Q4 : zmin (map fst shifts) = 0%Z) by (apply zmin_spec; [rewrite <- Z1; now apply in_map|]; intros x Hx; apply in_map_iff in Hx; destruct Hx as (s & <- & Is); apply B in Is; lia).
  rewrite Q1, Q2, Q3, Q4 in E. eexists. split; [exact E|]. unfold rsub, len, low. cbn [r_nx r_ny r_px]. rewrite X, Y, !bound_in by lia.
  assert (OV : forall x y, pixel n m x y -> (overlap n m shifts x y <-> (M <= x)%nat /\ (M <= y)%nat)).
  { intros x y (PX & PY). split.
    - intros O. destruct (O z3 I3) as (O3 & _), (O z4 I4) as (_ & O4). lia.
    - intros (MX & MY) s Is. destruct (B s Is). lia. }
  split; [lia|]. split; [lia|]. split; [|exact OV].
  intros i j (PI & PJ). rewrite !Nat2Z.id. apply P. apply OV; [split; lia|lia].
Qed.
(** Shifts along one axis only: the other axis is trimmed, and pixels that one image does not cover stay in the
    result, averaged with the empty border. *)
Theorem C89_axes_refuted : let a := Arr 3 3 (fun _ _ => 8) in
  exists r, combineImages KMean None [(0,0); (1,0)]%Z true [a; a] = inl r /\ r_nx r = 3%nat /\ r_ny r = 2%nat /\ r_px r 0 0 = Some 4.
Proof.
  cbv zeta. eexists. split; [reflexivity|]. cbn [r_nx r_ny r_px rsub]. split; [reflexivity|]. split; [reflexivity|].
  cbv -[Rplus Rmult Rdiv IZR Rinv]. f_equal. lra.
Qed.
(** Negative shifts: nothing is trimmed. *)
Theorem C89_negative_refuted : let a := Arr 3 3 (fun _ _ => 8) in
  exists r, combineImages KMean None [(0,0); (-1,-1)]%Z true [a; a] = inl r /\ r_nx r = 3%nat /\ r_ny r = 3%nat /\ r_px r 2 2 = Some 4.
Proof.
  cbv zeta. eexists. split; [reflexivity|]. cbn [r_nx r_ny r_px rsub]. split; [reflexivity|]. split; [reflexivity|].
  cbv -[Rplus Rmult Rdiv IZR Rinv]. f_equal. lra.
Qed.
Example C89_case : let scene := fun x y => IZR (x * 10 + y) in
  let ims := [Arr 4 5 (fun i j => scene (Z.of_nat i) (Z.of_nat j)); Arr 4 5 (fun i j => scene (Z.of_nat i + 2)%Z (Z.of_nat j + 1)%Z); Arr 4 5 (fun i j => scene (Z.of_nat i) (Z.of_nat j + 2)%Z)] in
  exists r, combineImages KMedian None [(0,0); (2,1); (0,2)]%Z true ims = inl r /\ r_nx r = 2%nat /\ r_ny r = 3%nat /\ r_px r 0 0 = Some 22.
Proof.
  cbv zeta. destruct (C89_trimmed KMedian (fun x y => IZR (x * 10 + y)) 4 5 [Arr 4 5 (fun i j => IZR (Z.of_nat i * 10 + Z.of_nat j)); Arr 4 5 (fun i j => IZR ((Z.of_nat i + 2) * 10 + (Z.of_nat j + 1))); Arr 4 5 (fun i j => IZR (Z.of_nat i * 10 + (Z.of_nat j + 2)))]
    [(0,0); (2,1); (0,2)]%Z 2) as (r & E & X & Y & P & _); try lia.
  - cbn; auto. - repeat constructor; intros; cbn [px fst snd]; f_equal; lia.
  - intros s [<-|[<-|[<-|[]]]]; cbn [fst snd]; lia.
  - exists (0,0)%Z. cbn; auto. - exists (0,0)%Z. cbn; auto. - exists (2,1)%Z. cbn; auto. - exists (0,2)%Z. cbn; auto 6.
  - exists r. split; [exact E|]. split; [exact X|]. split; [exact Y|]. rewrite P by (split; lia). reflexivity.
Qed.
