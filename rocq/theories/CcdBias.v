(** * CcdBias: bias subtraction, flat fields and noise models (C85, C88, C90) *)
From Coq Require Import Reals ZArith List Bool Arith Lia Lra Psatz Permutation Sorted.
From Verif Require Import PyBase AlgModel AlgClip CcdModel CcdRegion CcdEdit CcdClip CcdProcModel.
Import ListNotations.
Open Scope R_scope.

(** ** Specification of the averages *)
Definition is_average (h : how) (v : R) (l : list R) : Prop :=
  match h with
  | HMean => l <> [] /\ v * INR (length l) = fold_right Rplus 0 l
  | HMax => In v l /\ forall x, In x l -> x <= v
  | HMin => In v l /\ forall x, In x l -> v <= x
  | HMedian => exists s, Permutation l s /\ StronglySorted Rle s /\ s <> [] /\
      ((exists k, length s = (2 * k + 1)%nat /\ v = nth k s 0) \/
       (exists k, length s = (2 * k + 2)%nat /\ v = (nth k s 0 + nth (k + 1) s 0) / 2))
  end.
Lemma amax_spec l v : amax l = Some v -> In v l /\ forall x, In x l -> x <= v.
Proof.
  assert (MX : forall q d, (forall x, In x q -> x <= lmax q d) /\ d <= lmax q d /\ (lmax q d = d \/ In (lmax q d) q)).
  { induction q as [|x q IH]; intros d; [repeat split; auto; [intros x []|cbn; lra]|]. cbn [lmax]. destruct (IH (Rmax d x)) as (A' & C & D).
    pose proof (Rmax_l d x). pose proof (Rmax_r d x). split; [intros y [<-|Y]; [lra|now apply A']|]. split; [lra|].
    destruct D as [D|D]; [|right; now right]. rewrite D. unfold Rmax. destruct (Rle_dec d x); [right; now left|now left]. }
  destruct l as [|y q]; [discriminate|]. cbn [amax]. intros E. injection E as <-. destruct (MX q y) as (A' & B & C). split.
  - destruct C as [->|C]; [now left|now right].
  - intros x [<-|X]; auto.
Qed.
Lemma average_spec h l v : average h l = Some v -> is_average h v l.
Proof.
  destruct h; cbn [average is_average]; intros E.
  - destruct l as [|x r] eqn:L; [discriminate|]. rewrite <- L in *. assert (N : l <> []) by now rewrite L. split; [exact N|].
    rewrite mean_some in E by exact N. injection E as <-. fold (rsum l). change (INR (length l)) with (rlen l). pose proof (rlen_pos l N). field. lra.
  - destruct l as [|x r] eqn:L; [discriminate|]. rewrite <- L in *. assert (N : l <> []) by now rewrite L. rewrite median_some in E by exact N.
    exists (sort l). split; [apply sort_perm|]. split; [apply sort_sorted|]. split; [intros Z; apply N, Permutation_nil; rewrite <- Z; apply Permutation_sym, sort_perm|].
    rewrite sort_length. assert (LP : (0 < length l)%nat) by (rewrite L; cbn; lia). destruct (Nat.odd (length l)) eqn:O; inversion E; subst v.
    + left. exists (length l / 2)%nat. split; [now apply odd_half|reflexivity].
    + right. pose proof (even_half _ O). exists (length l / 2 - 1)%nat. split; [lia|]. replace (length l / 2 - 1 + 1)%nat with (length l / 2)%nat by lia. reflexivity.
  - now apply amax_spec.
  - now apply amin_spec.
Qed.
Lemma average_some h l : l <> [] -> exists v, average h l = Some v.
Proof.
  intros N. destruct h; cbn [average]; [rewrite mean_some by exact N|rewrite median_some by exact N| |]; try (eexists; reflexivity); (destruct l; [congruence|eexists; reflexivity]).
Qed.
Lemma average_none h l : average h l = None -> l = [].
Proof. intros E. destruct l as [|x r]; [reflexivity|]. destruct (average_some h (x :: r)) as (v & V); [discriminate|congruence]. Qed.
Lemma lmin_shift l c : forall d, lmin (map (fun x => x + c) l) (d + c) = lmin l d + c.
Proof. induction l as [|x l IH]; intros d; [reflexivity|]. cbn [map lmin]. replace (Rmin (d + c) (x + c)) with (Rmin d x + c); [apply IH|]. unfold Rmin. destruct (Rle_dec d x), (Rle_dec (d + c) (x + c)); lra. Qed.
Lemma lmax_shift l c : forall d, lmax (map (fun x => x + c) l) (d + c) = lmax l d + c.
Proof. induction l as [|x l IH]; intros d; [reflexivity|]. cbn [map lmax]. replace (Rmax (d + c) (x + c)) with (Rmax d x + c); [apply IH|]. unfold Rmax. destruct (Rle_dec d x), (Rle_dec (d + c) (x + c)); lra. Qed.
Lemma average_shift h c l : average h (map (fun x => x + c) l) = option_map (fun x => x + c) (average h l).
Proof.
  destruct h; cbn [average].
  - rewrite (map_ext (fun x => x + c) (fun x => 1 * x + c)) by (intros; lra). rewrite mean_affine. destruct (mean l); cbn; [f_equal; lra|reflexivity].
  - rewrite (map_ext (fun x => x + c) (fun x => 1 * x + c)) by (intros; lra). rewrite median_affine. destruct (median l); cbn; [f_equal; lra|reflexivity].
  - destruct l as [|x l]; [reflexivity|]. cbn [map amax option_map]. now rewrite lmax_shift.
  - destruct l as [|x l]; [reflexivity|]. cbn [map amin option_map]. now rewrite lmin_shift.
Qed.

(** ** Arrays, pixel by pixel *)
Definition aeq (a b : arr) : Prop := nx a = nx b /\ ny a = ny b /\ forall i j, px a i j = px b i j.
Lemma aeq_refl a : aeq a a. Proof. repeat split. Qed.
Lemma ravel_ext a b : aeq a b -> ravel a = ravel b.
Proof. intros (A & B & C). unfold ravel. rewrite A, B. f_equal. apply FunctionalExtensionality.functional_extensionality. intros i. apply map_ext. intros j. apply C. Qed.
Lemma ravel_map f a : ravel (amap f a) = map f (ravel a).
Proof.
  unfold ravel, amap. cbn [nx ny px]. induction (seq 0 (nx a)) as [|i l IH]; [reflexivity|]. cbn [flat_map]. rewrite map_app, IH, map_map. reflexivity.
Qed.
Lemma sub_ext a b r : aeq a b -> aeq (sub a r) (sub b r).
Proof. intros (A & B & C). destruct r as [[[xl xu] yl] yu]. unfold aeq, sub. cbn [nx ny px]. rewrite A, B. repeat split. intros; apply C. Qed.
Lemma sub_amap f a r : aeq (sub (amap f a) r) (amap f (sub a r)).
Proof. destruct r as [[[xl xu] yl] yu]. repeat split. Qed.
Lemma ravel_nil a : ravel a = [] -> forall i j, ~ pixel (nx a) (ny a) i j.
Proof. intros E i j P. assert (H : In (px a i j) (ravel a)) by (apply in_ravel; eauto). rewrite E in H. exact H. Qed.
Lemma ravel_some a i j : pixel (nx a) (ny a) i j -> ravel a <> [].
Proof. intros P E. exact (ravel_nil a E i j P). Qed.

(** ** C85: the bias level *)
(** Bias frame and bias region (no overscan): the frame is subtracted pixel by pixel, then one number from all
    pixels, the average of the region; the average of that region in the result is 0. *)
Theorem C85_level f r h im : (match f with Some f => nx f = nx im /\ ny f = ny im | None => True end) ->
  (exists i j, pixel (nx (sub im r)) (ny (sub im r)) i j) ->
  exists a v, subtractFromImage (Bias f (Some r) None AxX None (CName h) true) im = POk a None /\
    nx a = nx im /\ ny a = ny im /\
    (forall i j, px a i j = px im i j - match f with Some f => px f i j | None => 0 end - v) /\
    is_average h 0 (ravel (sub a r)).
Proof.
  intros F (i0 & j0 & P).
  set (im1 := match f with Some f => amap2 Rminus im f | None => im end).
  assert (S1 : step_frame (Bias f (Some r) None AxX None (CName h) true) im = POk im1 None).
  { unfold step_frame, im1. cbn [biasframe]. destruct f as [f|]; [|reflexivity]. unfold agree. rewrite (proj1 F), (proj2 F), !Nat.eqb_refl. reflexivity. }
  assert (SH : nx im1 = nx im /\ ny im1 = ny im) by (unfold im1; destruct f; split; reflexivity). destruct SH as (X & Y).
  assert (P1 : pixel (nx (sub im1 r)) (ny (sub im1 r)) i0 j0).
  { destruct r as [[[xl xu] yl] yu]. unfold sub in *. cbn [nx ny] in *. rewrite X, Y. exact P. }
  destruct (average_some h (ravel (sub im1 r)) (ravel_some _ _ _ P1)) as (v & V).
  exists (amap (fun x => x - v) im1), v. split; [|split; [exact X|split; [exact Y|split]]].
  - unfold subtractFromImage. rewrite S1. unfold step_region. cbn [biasregion method]. rewrite V. reflexivity.
  - intros i j. unfold im1. destruct f as [f|]; cbn [amap amap2 px]; lra.
  - rewrite (ravel_ext _ _ (sub_amap (fun x => x - v) im1 r)), ravel_map. apply average_spec.
    rewrite (map_ext (fun x => x - v) (fun x => x + - v)) by (intros; lra). rewrite average_shift, V. cbn [option_map]. f_equal. lra.
Qed.
(** nothing requested, nothing done *)
Theorem C85_nothing ax m t im : ax <> AxY -> subtractFromImage (Bias None None None ax None m t) im = POk im None.
Proof. intros H. destruct ax; [reflexivity|congruence|reflexivity]. Qed.

(** ** C85: overscan *)
Lemma seq_plus n : forall s k, map (fun i => (k + i)%nat) (seq s n) = seq (k + s) n.
Proof. induction n as [|n IH]; intros s k; [reflexivity|]. cbn [seq map]. rewrite IH. f_equal. f_equal. lia. Qed.
Lemma col_from a e j : (0 <= e <= Z.of_nat (nx a))%Z -> col (from_row a e) j = map (fun i => px a i j) (seq (Z.to_nat e) (nx a - Z.to_nat e)).
Proof.
  intros E. unfold col, from_row, sub, len, low. cbn [nx px]. rewrite !bound_in by lia. rewrite Nat2Z.id.
  replace (Z.to_nat 0) with 0%nat by reflexivity. cbn [Nat.add].
  replace (seq (Z.to_nat e) (nx a - Z.to_nat e)) with (map (fun i => (Z.to_nat e + i)%nat) (seq 0 (nx a - Z.to_nat e))) by (rewrite seq_plus; f_equal; lia).
  now rewrite map_map.
Qed.
Lemma col_to a e j : (0 <= e <= Z.of_nat (nx a))%Z -> col (to_row a e) j = map (fun i => px a i j) (seq 0 (Z.to_nat e)).
Proof.
  intros E. unfold col, to_row, sub, len, low. cbn [nx px]. rewrite !bound_in by lia. replace (Z.to_nat 0) with 0%nat by reflexivity.
  cbn [Nat.add]. now rewrite Nat.sub_0_r.
Qed.
Lemma from_nx a e : (0 <= e <= Z.of_nat (nx a))%Z -> nx (from_row a e) = (nx a - Z.to_nat e)%nat /\ ny (from_row a e) = ny a.
Proof. intros E. unfold from_row, sub, len. cbn [nx ny]. rewrite !bound_in by lia. lia. Qed.
Lemma to_nx a e : (0 <= e <= Z.of_nat (nx a))%Z -> nx (to_row a e) = Z.to_nat e /\ ny (to_row a e) = ny a.
Proof. intros E. unfold to_row, sub, len. cbn [nx ny]. rewrite !bound_in by lia. lia. Qed.
(** the pixels of a column whose row satisfies a condition *)
Definition column_part (a : arr) (rows : nat -> bool) (j : nat) : list R := map (fun i => px a i j) (filter rows (seq 0 (nx a))).
Definition in_overscan (edge : Z) (lft : bool) (i : nat) : bool := if lft then (edge <=? Z.of_nat i)%Z else (Z.of_nat i <? edge)%Z.
Lemma filter_none {A} (p : A -> bool) l : (forall x, In x l -> p x = false) -> filter p l = [].
Proof. induction l as [|x l IH]; intros H; [reflexivity|]. cbn [filter]. rewrite H by now left. apply IH. intros y Y. apply H. now right. Qed.
Lemma filter_all {A} (p : A -> bool) l : (forall x, In x l -> p x = true) -> filter p l = l.
Proof. induction l as [|x l IH]; intros H; [reflexivity|]. cbn [filter]. rewrite H by now left. f_equal. apply IH. intros y Y. apply H. now right. Qed.
Lemma part_from a e j : (0 <= e <= Z.of_nat (nx a))%Z -> column_part a (in_overscan e true) j = col (from_row a e) j.
Proof.
  intros E. rewrite col_from by exact E. unfold column_part, in_overscan. f_equal.
  replace (nx a) with (Z.to_nat e + (nx a - Z.to_nat e))%nat at 1 by lia. rewrite seq_app, filter_app, filter_none, filter_all; [reflexivity| |];
    intros x X; apply in_seq in X; [apply Z.leb_le|apply Z.leb_gt]; lia.
Qed.
Lemma part_to a e j : (0 <= e <= Z.of_nat (nx a))%Z -> column_part a (in_overscan e false) j = col (to_row a e) j.
Proof.
  intros E. rewrite col_to by exact E. unfold column_part, in_overscan. f_equal.
  replace (nx a) with (Z.to_nat e + (nx a - Z.to_nat e))%nat at 1 by lia. rewrite seq_app, filter_app, filter_all, filter_none; [apply app_nil_r| |];
    intros x X; apply in_seq in X; [apply Z.ltb_ge|apply Z.ltb_lt]; lia.
Qed.
(** Overscan along x, not trimmed, no fit: each column is lowered by one number, and averages to 0 over the overscan
    rows used (from [edge] on for a left edge, below [edge] for a right edge). *)
Theorem C85_overscan h edge (lft : bool) im : (if lft then 0 <= edge < Z.of_nat (nx im) else 0 < edge <= Z.of_nat (nx im))%Z ->
  exists a c, subtractFromImage (Bias None None (Some (edge, lft)) AxX None (CName h) false) im = POk a (Some c) /\
    nx a = nx im /\ ny a = ny im /\ (forall i j, px a i j = px im i j - c j) /\
    forall j, (j < ny im)%nat -> is_average h 0 (column_part a (in_overscan edge lft) j).
Proof.
  intros E.
  set (os := if lft then from_row im edge else to_row im edge).
  assert (NO : (nx os =? 0)%nat = false /\ forall a j, nx a = nx im -> column_part a (in_overscan edge lft) j = col (if lft then from_row a edge else to_row a edge) j).
  { unfold os. destruct lft; split.
    - destruct (from_nx im edge ltac:(lia)) as (-> & _). apply Nat.eqb_neq. lia.
    - intros a j A. apply part_from. lia.
    - destruct (to_nx im edge ltac:(lia)) as (-> & _). apply Nat.eqb_neq. lia.
    - intros a j A. apply part_to. lia. }
  destruct NO as (NO & PT).
  set (c := fun j : nat => match average h (col os j) with Some v => v | None => 0 end).
  exists (Arr (nx im) (ny im) (fun i j => px im i j - c j)), c. split; [|split; [reflexivity|split; [reflexivity|split; [reflexivity|]]]].
  - unfold subtractFromImage, step_frame, step_region, step_overscan. cbn [biasframe biasregion overscan overscanaxis method overscanfit trim]. cbv zeta. fold os. rewrite NO. reflexivity.
  - intros j J. rewrite PT by reflexivity. apply average_spec.
    assert (CE : col (if lft then from_row (Arr (nx im) (ny im) (fun i j => px im i j - c j)) edge else to_row (Arr (nx im) (ny im) (fun i j => px im i j - c j)) edge) j
                 = map (fun x => x + - c j) (col os j)).
    { unfold os. destruct lft; [rewrite !col_from by (cbn [nx]; lia)|rewrite !col_to by (cbn [nx]; lia)]; rewrite map_map; apply map_ext; intros i; cbn [px]; lra. }
    rewrite CE, average_shift. destruct (average h (col os j)) as [v|] eqn:V; cbn [option_map]; [f_equal; unfold c; rewrite V; lra|].
    exfalso. apply average_none in V. unfold col in V. apply Nat.eqb_neq in NO. destruct (nx os); [lia|discriminate].
Qed.
(** ** Bias structure cancels *)
Definition plus_curve (im : arr) (h : nat -> R) : arr := Arr (nx im) (ny im) (fun i j => px im i j + h j).
Lemma overscan_ext b a a' : aeq a a' -> forall h x c, overscan b <> None -> overscanfit b = None -> method b = CName h -> overscanaxis b = AxX ->
  step_overscan b a = POk x c -> forall d, exists x' c', step_overscan b (plus_curve a' d) = POk x' c' /\ aeq x' x.
Proof.
  intros (EX & EY & EP) h x c NO NF MT AX S d. unfold step_overscan in *. destruct (overscan b) as [[e lft]|]; [|congruence]. rewrite AX, NF, MT in *. cbv zeta in *.
  set (os := if lft then from_row a e else to_row a e) in *. set (os' := if lft then from_row (plus_curve a' d) e else to_row (plus_curve a' d) e).
  assert (OS : nx os' = nx os /\ forall j, (j < ny a)%nat -> col os' j = map (fun x => x + d j) (col os j)).
  { assert (N : nx os' = nx os) by (unfold os, os'; destruct lft; unfold from_row, to_row, sub, plus_curve; cbn [nx ny]; now rewrite EX).
    split; [exact N|]. intros j J. unfold col. rewrite N, map_map. apply map_ext. intros i.
    unfold os, os'; destruct lft; unfold from_row, to_row, sub, plus_curve; cbn [nx ny px]; rewrite <- EP, EX, EY; unfold low; rewrite (bound_in (ny a') 0) by lia; reflexivity. }
  destruct OS as (N & CO). rewrite N. destruct (nx os =? 0)%nat eqn:Z0; [discriminate S || (destruct h; discriminate S)|].
  injection S as <- <-. eexists _, _. split; [reflexivity|].
  set (c := fun j : nat => match average h (col os j) with Some v => v | None => 0 end).
  set (c' := fun j : nat => match average h (col os' j) with Some v => v | None => 0 end).
  assert (CC : forall j, c' j = c j + d j).
  { intros j. unfold c, c'. assert (CO' : col os' j = map (fun x => x + d j) (col os j)).
    { unfold col. rewrite N, map_map. apply map_ext. intros i.
      unfold os, os'; destruct lft; unfold from_row, to_row, sub, plus_curve; cbn [nx ny px]; rewrite <- EP, EX, EY; unfold low; rewrite (bound_in (ny a') 0) by lia; reflexivity. }
    rewrite CO', average_shift. destruct (average h (col os j)) as [v|] eqn:V; [reflexivity|].
    exfalso. apply average_none in V. unfold col in V. apply Nat.eqb_neq in Z0. destruct (nx os); [lia|discriminate]. }
  assert (B : aeq (Arr (nx (plus_curve a' d)) (ny (plus_curve a' d)) (fun i j => px (plus_curve a' d) i j - c' j)) (Arr (nx a) (ny a) (fun i j => px a i j - c j))).
  { unfold aeq, plus_curve. cbn [nx ny px]. split; [now symmetry|]. split; [now symmetry|]. intros i j. rewrite CC, EP. lra. }
  destruct (trim b); [|exact B]. destruct B as (B1 & B2 & B3). cbn [nx ny px] in B1, B2, B3.
  destruct lft; unfold from_row, to_row, sub, aeq; cbn [nx ny px]; rewrite B1, B2; (split; [reflexivity|split; [reflexivity|]]); intros i j; apply B3.
Qed.
(** Adding to the image any bias that depends only on the position along the overscan edge -- a constant, a ramp,
    any curve -- does not change the result, with or without bias frame, bias region and trimming. *)
Theorem C85_invariant f r edge lft ax h t im im' x c d : In ax [AxX; AxY] ->
  subtractFromImage (Bias f r (Some (edge, lft)) ax None (CName h) t) im = POk x c ->
  nx im' = nx im -> ny im' = ny im -> (forall i j, px im' i j = px im i j + match ax with AxX => d j | _ => d i end) ->
  exists x' c', subtractFromImage (Bias f r (Some (edge, lft)) ax None (CName h) t) im' = POk x' c' /\ aeq x' x.
Proof.
  intros AX S X Y P. set (b := Bias f r (Some (edge, lft)) ax None (CName h) t) in *.
  unfold subtractFromImage in *.
  destruct (step_frame b im) as [a1 u1|e|] eqn:S1; try discriminate.
  destruct (step_region b a1) as [a2 u2|e|] eqn:S2; try discriminate.
  destruct (step_overscan b a2) as [a3 u3|e|] eqn:S3; try discriminate.
  (* the two images before the frame step, after it *)
  set (D := fun i j => match ax with AxX => d j | _ => d i end).
  assert (G1 : exists a1', step_frame b im' = POk a1' None /\ nx a1' = nx a1 /\ ny a1' = ny a1 /\ forall i j, px a1' i j = px a1 i j + D i j).
  { unfold step_frame in *. cbn [biasframe b] in *. destruct f as [f|].
    - unfold agree in *. rewrite X, Y. destruct ((nx im =? nx f)%nat && (ny im =? ny f)%nat) eqn:AG; [|discriminate]. injection S1 as <- <-.
      eexists. split; [reflexivity|]. cbn [amap2 nx ny px]. split; [exact X|]. split; [exact Y|]. intros i j. rewrite P. unfold D. lra.
    - injection S1 as <- <-. eexists. split; [reflexivity|]. split; [exact X|]. split; [exact Y|]. exact P. }
  destruct G1 as (a1' & F1 & X1 & Y1 & P1). rewrite F1.
  assert (G2 : exists k a2', step_region b a1' = POk a2' None /\ nx a2' = nx a2 /\ ny a2' = ny a2 /\ forall i j, px a2' i j = px a2 i j + (D i j + k)).
  { unfold step_region in *. cbn [biasregion b method] in *. destruct r as [r|].
    - destruct (average h (ravel (sub a1 r))) as [v|] eqn:V; [|destruct h; discriminate]. injection S2 as <- <-.
      assert (NE : ravel (sub a1' r) <> []).
      { intros E. assert (X0 : ravel (sub a1 r) = []). { destruct (ravel (sub a1 r)) as [|y l] eqn:R; [reflexivity|]. exfalso.
          assert (I : In y (ravel (sub a1 r))) by (rewrite R; now left). apply in_ravel in I. destruct I as (i & j & PP & _).
          apply (ravel_nil _ E i j). destruct r as [[[xl xu] yl] yu]. unfold sub in *. cbn [nx ny] in *. rewrite X1, Y1. exact PP. }
        rewrite X0 in V. destruct h; discriminate. }
      destruct (average_some h _ NE) as (v' & V'). rewrite V'. exists (v - v'). eexists. split; [reflexivity|]. cbn [amap nx ny px]. split; [exact X1|]. split; [exact Y1|].
      intros i j. rewrite P1. lra.
    - injection S2 as <- <-. exists 0. eexists. split; [reflexivity|]. split; [exact X1|]. split; [exact Y1|]. intros i j. rewrite P1. lra. }
  destruct G2 as (k & a2' & F2 & X2 & Y2 & P2). rewrite F2.
  destruct AX as [<-|[<-|[]]].
  - assert (OB : overscanaxis b = AxX) by reflexivity.
    destruct (overscan_ext b a2 a2 (aeq_refl a2) h a3 u3 ltac:(discriminate) eq_refl eq_refl OB S3 (fun j => d j + k)) as (x' & c' & S3' & E3).
    assert (EE : step_overscan b a2' = step_overscan b (plus_curve a2 (fun j => d j + k))).
    { f_equal. destruct a2' as [n1 n2 p2]. cbn [nx ny px] in *. unfold plus_curve. subst n1 n2. f_equal.
      apply FunctionalExtensionality.functional_extensionality. intros i. apply FunctionalExtensionality.functional_extensionality. intros j. apply P2. }
    rewrite EE, S3'. cbn [overscanaxis b] in *. injection S as <- <-. exists x', c'. split; [reflexivity|exact E3].
  - set (bx := Bias f r (Some (edge, lft)) AxX None (CName h) t).
    assert (TR : forall z, step_overscan b z = step_overscan bx (tr z)) by reflexivity.
    rewrite TR in S3. rewrite TR.
    destruct (overscan_ext bx (tr a2) (tr a2) (aeq_refl _) h a3 u3 ltac:(discriminate) eq_refl eq_refl eq_refl S3 (fun j => d j + k)) as (x' & c' & S3' & E3).
    assert (EE : step_overscan bx (tr a2') = step_overscan bx (plus_curve (tr a2) (fun j => d j + k))).
    { f_equal. unfold plus_curve, tr. cbn [nx ny px]. rewrite X2, Y2. f_equal.
      apply FunctionalExtensionality.functional_extensionality. intros i. apply FunctionalExtensionality.functional_extensionality. intros j. apply P2. }
    rewrite EE, S3'. cbn [overscanaxis b] in *. injection S as <- <-. exists (tr x'), c'. split; [reflexivity|].
    destruct E3 as (E1 & E2 & E3). unfold aeq, tr. cbn [nx ny px]. split; [exact E2|]. split; [exact E1|]. intros; apply E3.
Qed.
(** Trimming keeps exactly the overscan rows and drops the rest of the image: every column of the trimmed result
    averages to 0, whatever was observed. *)
Theorem C85_trim_refuted h edge (lft : bool) im : (if lft then 0 <= edge < Z.of_nat (nx im) else 0 < edge <= Z.of_nat (nx im))%Z ->
  exists a c, subtractFromImage (Bias None None (Some (edge, lft)) AxX None (CName h) true) im = POk a (Some c) /\
    forall j, (j < ny im)%nat -> is_average h 0 (map (fun i => px a i j) (seq 0 (nx a))).
Proof.
  intros E. destruct (C85_overscan h edge lft im E) as (a & c & S & X & Y & P & Z).
  assert (S' : subtractFromImage (Bias None None (Some (edge, lft)) AxX None (CName h) true) im = POk (if lft then from_row a edge else to_row a edge) (Some c)).
  { unfold subtractFromImage, step_frame, step_region, step_overscan in *. cbn [biasframe biasregion overscan overscanaxis method overscanfit trim] in *. cbv zeta in *.
    destruct (nx (if lft then from_row im edge else to_row im edge) =? 0)%nat; [destruct h; discriminate|]. injection S as <- <-. destruct lft; reflexivity. }
  eexists _, c. split; [exact S'|]. intros j J. specialize (Z j J).
  destruct lft; [rewrite part_from in Z by (rewrite X; lia)|rewrite part_to in Z by (rewrite X; lia)]; exact Z.
Qed.
(** With the overscan axis set to y and no overscan given, the image comes back transposed. *)
Theorem C85_axis_refuted m t im : subtractFromImage (Bias None None None AxY None m t) im = POk (tr im) None.
Proof. reflexivity. Qed.
Example C85_case : let im := Arr 4 3 (fun i j => INR (i * j + 7)) in
  (exists i j, pixel (nx (sub im (0,2,0,2)%Z)) (ny (sub im (0,2,0,2)%Z)) i j) /\
  exists x c, subtractFromImage (Bias None (Some (0,2,0,2)%Z) (Some (2%Z, true)) AxX None (CName HMean) false) im = POk x c.
Proof.
  cbv zeta. split; [exists 0%nat, 0%nat; split; cbn; lia|].
  set (b := Bias _ _ _ _ _ _ _). set (im := Arr _ _ _).
  destruct (average_some HMean (ravel (sub im (0,2,0,2)%Z))) as (v & V); [discriminate|].
  unfold subtractFromImage. change (step_frame b im) with (POk im None). unfold step_region. cbn [biasregion method b]. rewrite V.
  eexists _, _. reflexivity.
Qed.

(** ** C88: flat fields *)
(** A detector whose pixels respond by [resp] (non-zero), exposed to a scene and to a uniform light of level [L]:
    flattening returns the scene times one number -- the average response, whatever the level of the flat. *)
Theorem C88_response h resp scene flat im L v : nx scene = nx resp -> ny scene = ny resp -> L > 0 ->
  flat = amap (fun x => L * x) resp -> im = amap2 Rmult scene resp -> (forall i j, pixel (nx resp) (ny resp) i j -> px resp i j <> 0) ->
  average h (ravel resp) = Some v ->
  exists a, flattenImage h flat im = POk a None /\ nx a = nx scene /\ ny a = ny scene /\
    forall i j, pixel (nx scene) (ny scene) i j -> px a i j = px scene i j * v.
Proof.
  intros X Y LP -> -> NZ V. unfold flattenImage. rewrite ravel_map.
  assert (AV : average h (map (fun x => L * x) (ravel resp)) = Some (L * v)).
  { destruct h; cbn [average] in *.
    - rewrite (map_ext (fun x => L * x) (fun x => L * x + 0)) by (intros; lra). rewrite mean_affine, V. cbn. f_equal. lra.
    - rewrite (map_ext (fun x => L * x) (fun x => L * x + 0)) by (intros; lra). rewrite median_affine, V. cbn. f_equal. lra.
    - destruct (ravel resp) as [|y q]; [discriminate|]. cbn [map amax] in *. injection V as <-. f_equal.
      revert y. induction q as [|z q IH]; intros y; [reflexivity|]. cbn [map lmax]. rewrite <- IH. f_equal. unfold Rmax. destruct (Rle_dec (L * y) (L * z)), (Rle_dec y z); try reflexivity; nra.
    - destruct (ravel resp) as [|y q]; [discriminate|]. cbn [map amin] in *. injection V as <-. f_equal.
      revert y. induction q as [|z q IH]; intros y; [reflexivity|]. cbn [map lmin]. rewrite <- IH. f_equal. unfold Rmin. destruct (Rle_dec (L * y) (L * z)), (Rle_dec y z); try reflexivity; nra. }
  rewrite AV. unfold agree. cbn [amap amap2 nx ny]. rewrite X, Y, !Nat.eqb_refl. cbn [andb].
  eexists. split; [reflexivity|]. cbn [amap2 amap nx ny px]. split; [exact X|]. split; [exact Y|].
  intros i j P. rewrite ?X, ?Y in P. specialize (NZ i j P). field. split; [exact NZ|lra].
Qed.
(** flattening the flat itself gives a uniform image, at the average level of the flat *)
Theorem C88_flat h flat v : (forall i j, pixel (nx flat) (ny flat) i j -> px flat i j <> 0) -> average h (ravel flat) = Some v ->
  exists a, flattenImage h flat flat = POk a None /\ forall i j, pixel (nx flat) (ny flat) i j -> px a i j = v.
Proof.
  intros NZ V. unfold flattenImage. rewrite V. unfold agree. rewrite !Nat.eqb_refl. eexists. split; [reflexivity|].
  intros i j P. cbn [amap2 px]. specialize (NZ i j P). field. exact NZ.
Qed.
(** images of another shape are refused *)
Theorem C88_shape h flat im : ravel flat <> [] -> nx im <> nx flat \/ ny im <> ny flat -> flattenImage h flat im = PRaise ValueError.
Proof.
  intros N H. unfold flattenImage. destruct (average_some h _ N) as (v & ->). unfold agree.
  replace ((nx im =? nx flat)%nat && (ny im =? ny flat)%nat) with false; [reflexivity|]. symmetry. apply andb_false_iff. rewrite !Nat.eqb_neq. exact H.
Qed.
Example C88_case : let resp := Arr 2 2 (fun i j => INR (i + j + 1)) in
  (forall i j, pixel (nx resp) (ny resp) i j -> px resp i j <> 0) /\ average HMean (ravel resp) <> None /\ ravel resp <> [].
Proof. cbv zeta. split; [|split; discriminate]. intros i j _. cbn [px]. rewrite Nat.add_1_r. apply not_0_INR. lia. Qed.

(** ** C90: noise models *)
(** whatever is drawn, the result lies within the floor and the ceiling, and a draw within them is not altered *)
Theorem C90_limits floor ceiling x : (forall f c, floor = Some f -> ceiling = Some c -> f <= c) ->
  (forall f, floor = Some f -> f <= limit floor ceiling x) /\ (forall c, ceiling = Some c -> limit floor ceiling x <= c) /\
  ((forall f, floor = Some f -> f <= x) -> (forall c, ceiling = Some c -> x <= c) -> limit floor ceiling x = x).
Proof.
  intros H. unfold limit. destruct floor as [f|], ceiling as [c|].
  - specialize (H f c eq_refl eq_refl). split; [|split].
    + intros f' E. injection E as <-. destruct (Rlt_dec c x); destruct (Rlt_dec _ f); lra.
    + intros c' E. injection E as <-. destruct (Rlt_dec c x); destruct (Rlt_dec _ f); lra.
    + intros A B. specialize (A f eq_refl). specialize (B c eq_refl). destruct (Rlt_dec c x); destruct (Rlt_dec _ f); lra.
  - split; [|split; [discriminate|]].
    + intros f' E. injection E as <-. destruct (Rlt_dec x f); lra.
    + intros A _. specialize (A f eq_refl). destruct (Rlt_dec x f); lra.
  - split; [discriminate|split].
    + intros c' E. injection E as <-. destruct (Rlt_dec c x); lra.
    + intros _ B. specialize (B c eq_refl). destruct (Rlt_dec c x); lra.
  - repeat split; try discriminate.
Qed.
(** The variance of the CCD model is at least that of photon counting, with equality exactly when there is neither
    read noise nor sensitivity noise (or signal) to add; then the noise is the photon noise alone. *)
Theorem C90_ccd g rn sn d : 0 < g -> 0 <= d ->
  0 <= d / g /\ d / g <= ccd_var g rn sn d /\ (ccd_var g rn sn d = d / g <-> rn = 0 /\ (sn = 0 \/ d = 0)) /\
  (rn = 0 /\ (sn = 0 \/ d = 0) -> forall poisson normal, ccd_noise g rn sn poisson normal d = poisson (d / g)).
Proof.
  intros G D. assert (I : 0 < / g) by now apply Rinv_0_lt_compat.
  assert (A : 0 <= d / g) by (unfold Rdiv; nra).
  pose proof (sq_nn (rn / g)) as S1. pose proof (sq_nn (sn * d)) as S2.
  split; [exact A|]. split; [unfold ccd_var; lra|].
  assert (EQ : ccd_var g rn sn d = d / g <-> rn = 0 /\ (sn = 0 \/ d = 0)).
  { unfold ccd_var. split.
    - intros E. assert (E1 : rn / g = 0) by (apply Rsqr_0_uniq; unfold Rsqr; lra). assert (E2 : sn * d = 0) by (apply Rsqr_0_uniq; unfold Rsqr; lra).
      split; [|now apply Rmult_integral]. unfold Rdiv in E1. apply Rmult_integral in E1. destruct E1; lra.
    - intros (-> & [-> | ->]); unfold Rdiv; ring. }
  split; [exact EQ|]. intros H poisson normal. apply EQ in H. unfold ccd_noise. rewrite H.
  destruct (Rle_dec (d / g - d / g) 0) as [_|N]; [ring|lra].
Qed.
(** The gain is in electrons per count, but the counts are divided by it, and the result is not brought back to
    counts: with draws equal to their means, the noisy data are the data divided by the gain. *)
Theorem C90_gain_refuted g d : 0 < g -> 0 <= d -> ccd_noise g 0 0 (fun x => x) (fun _ => 0) d = d / g.
Proof. intros G D. destruct (C90_ccd g 0 0 d G D) as (_ & _ & _ & H). apply H. auto. Qed.
