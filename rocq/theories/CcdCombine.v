(** * CcdCombine: combining images (C86), rejecting outliers (C87), aligning shifted images (C89) *)
From Coq Require Import Reals ZArith List Bool Arith Lia Lra Psatz Permutation Sorted.
From Verif Require Import PyBase AlgModel AlgClip CcdModel CcdRegion CcdEdit CcdClip CcdProcModel CcdBias.
Import ListNotations.
Open Scope R_scope.

(** ** Specification *)
Definition same_shape (n m : nat) (ims : list arr) : Prop := forall a, In a ims -> nx a = n /\ ny a = m.
(** the values of one pixel in the images, in the order of the images *)
Definition values (ims : list arr) (i j : nat) : list R := map (fun a => px a i j) ims.
(** how one pixel of the result depends on the values *)
Definition combined (k : combining) (v : R) (l : list R) : Prop :=
  match k with
  | KMean => is_average HMean v l
  | KMedian => is_average HMedian v l
  | KMin => is_average HMin v l
  | KMax => is_average HMax v l
  | KSum => v = fold_right Rplus 0 l
  | KWeights ws => v = fold_right Rplus 0 (map (fun n => nth n ws 0 * nth n l 0) (seq 0 (length l)))
  | KInvalid => False
  end.
(** a method that can be applied to that many images *)
Definition applicable (k : combining) (n : nat) : Prop :=
  match k with KWeights ws => length ws = n | KInvalid => False | _ => True end.
Definition named (k : combining) : Prop := In k [KMean; KMedian; KSum; KMin; KMax].

(** ** Lemmas *)
Lemma combine_seq (l k : list R) : length k = length l -> map2 Rmult l k = map (fun n => nth n k 0 * nth n l 0) (seq 0 (length l)).
Proof.
  unfold map2. revert k. induction l as [|x l IH]; intros [|y k] E; cbn [length] in E; try discriminate; [reflexivity|].
  cbn [combine map length seq]. f_equal; [cbn; lra|]. rewrite IH by lia. rewrite <- seq_shift, map_map. reflexivity.
Qed.
Lemma widen_same (l : list R) : widen (length l) l = l.
Proof. destruct l as [|x [|y l]]; reflexivity. Qed.
Lemma op_spec k l v : l <> [] -> applicable k (length l) -> pixel_op k l = Some v -> combined k v l.
Proof.
  intros N A E. destruct k; cbn [pixel_op combined applicable] in *; try contradiction.
  - now apply (average_spec HMean).
  - now apply (average_spec HMedian).
  - destruct l; [congruence|]. injection E as <-. reflexivity.
  - now apply (average_spec HMin).
  - now apply (average_spec HMax).
  - injection E as <-. assert (W1 : widen (length ws) l = l) by (rewrite A; apply widen_same). assert (W2 : widen (length l) ws = ws) by (rewrite <- A; apply widen_same). rewrite W1, W2, combine_seq by exact A. reflexivity.
Qed.
Lemma op_some k l : l <> [] -> applicable k (length l) -> exists v, pixel_op k l = Some v.
Proof.
  intros N A. destruct k; cbn [pixel_op applicable] in *; try contradiction.
  - now apply (average_some HMean).
  - now apply (average_some HMedian).
  - destruct l; [congruence|eauto].
  - now apply (average_some HMin).
  - now apply (average_some HMax).
  - eauto.
Qed.
Lemma agree_all n m ims im0 : same_shape n m ims -> In im0 ims -> forallb (agree im0) ims = true.
Proof. intros S I. apply forallb_forall. intros a A. unfold agree. destruct (S a A), (S im0 I). apply andb_true_intro. split; apply Nat.eqb_eq; congruence. Qed.
Lemma fits_app k n : applicable k n -> weights_fit k n = true.
Proof. destruct k; cbn; try reflexivity; intros ->. now rewrite Nat.eqb_refl. Qed.
Lemma used_named k s l : named k -> used k (Some s) l = filter (fun x => negb (clipped s l x)) l.
Proof. intros [<-|[<-|[<-|[<-|[<-|[]]]]]]; reflexivity. Qed.
(** the result of combining images without shifts *)
Lemma combine_plain k sc t ims n m : ims <> [] -> same_shape n m ims -> applicable k (length ims) ->
  exists r, combineImages k sc [] t ims = inl r /\ r_nx r = n /\ r_ny r = m /\ forall i j, r_px r i j = pixel_op k (used k sc (values ims i j)).
Proof.
  intros N S A. destruct ims as [|im0 q]; [congruence|]. destruct (S im0) as (X & Y); [now left|].
  unfold combineImages. rewrite (agree_all n m _ _ S) by now left. cbn [negb shifted]. rewrite fits_app by exact A. cbn [negb].
  eexists (Result (nx im0) (ny im0) _). split; [destruct k; try reflexivity; contradiction|].
  cbn [r_nx r_ny r_px]. split; [exact X|]. split; [exact Y|]. reflexivity.
Qed.

(** ** C86 *)
(** Images of one shape, combined by name or by one weight per image: an image of that shape, each pixel of which is
    the mean, median, sum, smallest, largest or weighted sum of the values of that pixel. *)
Theorem C86_pixels k t ims n m : ims <> [] -> same_shape n m ims -> applicable k (length ims) ->
  exists r, combineImages k None [] t ims = inl r /\ r_nx r = n /\ r_ny r = m /\
    forall i j, exists v, r_px r i j = Some v /\ combined k v (values ims i j).
Proof.
  intros N S A. destruct (combine_plain k None t ims n m N S A) as (r & E & X & Y & P). exists r. repeat split; try assumption.
  intros i j. rewrite P. replace (used k None (values ims i j)) with (values ims i j) by (destruct k; reflexivity).
  assert (N' : values ims i j <> []) by (unfold values; destruct ims; [congruence|discriminate]).
  assert (A' : applicable k (length (values ims i j))) by (unfold values; now rewrite map_length).
  destruct (op_some k _ N' A') as (v & V). exists v. split; [exact V|]. now apply op_spec.
Qed.
(** nothing to combine, or images of different shapes: refused *)
Theorem C86_refused k sc s t : combineImages k sc s t [] = inr IndexError /\
  forall ims a b, In a ims -> In b ims -> (nx a <> nx b \/ ny a <> ny b) -> combineImages k sc s t ims = inr ValueError.
Proof.
  split; [reflexivity|]. intros ims a b A B D. destruct ims as [|im0 q]; [contradiction|]. unfold combineImages.
  replace (forallb (agree im0) (im0 :: q)) with false; [reflexivity|]. symmetry. apply not_true_is_false. intros F.
  rewrite forallb_forall in F. pose proof (F a A) as FA. pose proof (F b B) as FB. unfold agree in FA, FB.
  apply andb_prop in FA, FB. destruct FA as (A1 & A2), FB as (B1 & B2). apply Nat.eqb_eq in A1, A2, B1, B2. destruct D; congruence.
Qed.
Lemma std_perm a b : Permutation a b -> std a = std b.
Proof. intros P. unfold std. now rewrite (var_perm a b P). Qed.
Lemma amin_perm a b : Permutation a b -> amin a = amin b.
Proof.
  intros P. destruct (amin a) as [u|] eqn:U, (amin b) as [v|] eqn:V; try reflexivity.
  - destruct (amin_spec _ _ U) as (U1 & U2), (amin_spec _ _ V) as (V1 & V2). f_equal. apply Rle_antisym.
    + apply U2. now apply (Permutation_in _ (Permutation_sym P)).
    + apply V2. now apply (Permutation_in _ P).
  - destruct b; [|discriminate]. apply Permutation_sym, Permutation_nil in P. now subst.
  - destruct a; [|discriminate]. apply Permutation_nil in P. now subst.
Qed.
Lemma amax_perm a b : Permutation a b -> amax a = amax b.
Proof.
  intros P. destruct (amax a) as [u|] eqn:U, (amax b) as [v|] eqn:V; try reflexivity.
  - destruct (amax_spec _ _ U) as (U1 & U2), (amax_spec _ _ V) as (V1 & V2). f_equal. apply Rle_antisym.
    + apply V2. now apply (Permutation_in _ P).
    + apply U2. now apply (Permutation_in _ (Permutation_sym P)).
  - destruct b; [|discriminate]. apply Permutation_sym, Permutation_nil in P. now subst.
  - destruct a; [|discriminate]. apply Permutation_nil in P. now subst.
Qed.
Lemma op_perm k a b : named k -> Permutation a b -> pixel_op k a = pixel_op k b.
Proof.
  intros K P. destruct K as [<-|[<-|[<-|[<-|[<-|[]]]]]]; cbn [pixel_op].
  - now apply mean_perm. - now apply median_perm.
  - destruct a as [|x a], b as [|y b]; try reflexivity; [now apply Permutation_nil in P|now apply Permutation_sym, Permutation_nil in P|]. f_equal. now apply rsum_perm.
  - now apply amin_perm. - now apply amax_perm.
Qed.
Lemma filter_perm (p : R -> bool) a b : Permutation a b -> Permutation (filter p a) (filter p b).
Proof.
  induction 1; cbn [filter]; [constructor|destruct (p x); auto| |eapply Permutation_trans; eauto].
  destruct (p x), (p y); try apply Permutation_refl. apply perm_swap.
Qed.
Lemma used_perm k sc a b : named k -> Permutation a b -> Permutation (used k sc a) (used k sc b).
Proof.
  intros K P. destruct sc as [s|]; [|destruct k; exact P]. rewrite !used_named by exact K.
  assert (E : forall x, clipped s a x = clipped s b x) by (intros x; unfold clipped; now rewrite (mean_perm _ _ P), (std_perm _ _ P)).
  rewrite (filter_ext (fun x => negb (clipped s a x)) (fun x => negb (clipped s b x))) by (intros x; now rewrite E). now apply filter_perm.
Qed.
(** the order of the images does not matter, with or without rejection of outliers *)
Theorem C86_order k sc t ims ims' n m r : named k -> same_shape n m ims -> Permutation ims ims' -> combineImages k sc [] t ims = inl r ->
  exists r', combineImages k sc [] t ims' = inl r' /\ r_nx r' = r_nx r /\ r_ny r' = r_ny r /\ forall i j, r_px r' i j = r_px r i j.
Proof.
  intros K S P E. assert (N : ims <> []) by (intros ->; discriminate).
  assert (A : forall n, applicable k n) by (intros; destruct K as [<-|[<-|[<-|[<-|[<-|[]]]]]]; exact I).
  destruct (combine_plain k sc t ims n m N S (A _)) as (q & E' & X & Y & Q). rewrite E in E'. injection E' as <-.
  assert (N' : ims' <> []) by (intros ->; apply Permutation_sym, Permutation_nil in P; congruence).
  assert (S' : same_shape n m ims') by (intros a I; apply S; now apply (Permutation_in _ (Permutation_sym P))).
  destruct (combine_plain k sc t ims' n m N' S' (A _)) as (q & E' & X' & Y' & Q'). exists q. rewrite X, Y. repeat split; try assumption.
  intros i j. rewrite Q, Q'. apply op_perm; [exact K|]. apply used_perm; [exact K|]. unfold values. apply Permutation_sym. now apply Permutation_map.
Qed.
(** ** a strict majority decides the median *)
Definition inside (a b x : R) : bool := if Rle_dec a x then if Rle_dec x b then true else false else false.
Lemma inside_spec a b x : inside a b x = true <-> a <= x <= b.
Proof. unfold inside. destruct (Rle_dec a x), (Rle_dec x b); split; intros H; try discriminate; try reflexivity; lra. Qed.
Lemma filter_le {A} (p : A -> bool) l : (length (filter p l) <= length l)%nat.
Proof. induction l as [|x l IH]; cbn [filter length]; [lia|]. destruct (p x); cbn [length]; lia. Qed.
Lemma low_side a b s k : StronglySorted Rle s -> (k < length s)%nat -> nth k s 0 < a -> (length (filter (inside a b) s) + (k + 1) <= length s)%nat.
Proof.
  intros SS K L. rewrite <- (firstn_skipn (k + 1) s) at 1. rewrite filter_app, filter_none.
  - cbn [app]. pose proof (filter_le (inside a b) (skipn (k + 1) s)) as F. rewrite skipn_length in F. lia.
  - intros x X. apply not_true_is_false. rewrite inside_spec. intros H. apply (In_nth _ _ 0) in X. destruct X as (i & I & <-).
    rewrite firstn_length in I. rewrite nth_firstn_lt in H by lia. pose proof (ss_nth s i k SS ltac:(lia)). lra.
Qed.
Lemma high_side a b s k : StronglySorted Rle s -> (k < length s)%nat -> b < nth k s 0 -> (length (filter (inside a b) s) <= k)%nat.
Proof.
  intros SS K L. rewrite <- (firstn_skipn k s) at 1. rewrite filter_app, (filter_none _ (skipn k s)).
  - rewrite app_nil_r. pose proof (filter_le (inside a b) (firstn k s)) as F. rewrite firstn_length in F. lia.
  - intros x X. apply not_true_is_false. rewrite inside_spec. intros H. apply (In_nth _ _ 0) in X. destruct X as (i & I & <-).
    rewrite skipn_length in I. rewrite nth_skipn_plus in H. pose proof (ss_nth s k (k + i) SS ltac:(lia)). lra.
Qed.
Lemma some_inj (x y : R) : Some x = Some y -> x = y. Proof. now intros [=]. Qed.
Lemma median_majority l a b v : (length l < 2 * length (filter (inside a b) l))%nat -> median l = Some v -> a <= v <= b.
Proof.
  intros MJ E. assert (N : l <> []) by (intros ->; discriminate). rewrite median_some in E by exact N. apply some_inj in E. subst v.
  assert (LP : (0 < length l)%nat) by (destruct l; [congruence|cbn; lia]).
  assert (CS : length (filter (inside a b) (sort l)) = length (filter (inside a b) l)) by (apply Permutation_length, filter_perm, Permutation_sym, sort_perm).
  pose proof (sort_sorted l) as SS. pose proof (sort_length l) as SL.
  assert (MID : forall k, (k < length l)%nat -> (length l <= 2 * k + 2)%nat -> (2 * k <= length l)%nat -> a <= nth k (sort l) 0 <= b).
  { intros k K1 K2 K3. split.
    - destruct (Rle_lt_dec a (nth k (sort l) 0)) as [H|H]; [exact H|]. pose proof (low_side a b (sort l) k SS ltac:(lia) H). lia.
    - destruct (Rle_lt_dec (nth k (sort l) 0) b) as [H|H]; [exact H|]. pose proof (high_side a b (sort l) k SS ltac:(lia) H). lia. }
  destruct (Nat.odd (length l)) eqn:O.
  - pose proof (odd_half _ O). apply MID; lia.
  - pose proof (even_half _ O). pose proof (MID (length l / 2)%nat ltac:(lia) ltac:(lia) ltac:(lia)). pose proof (MID (length l / 2 - 1)%nat ltac:(lia) ltac:(lia) ltac:(lia)). lra.
Qed.
(** Whatever the other images contain (cosmic rays, satellites), the median lies where a strict majority of the
    images lies. *)
Theorem C86_majority t ims n m r i j a b (good : list arr) : same_shape n m ims -> combineImages KMedian None [] t ims = inl r ->
  (exists bad, Permutation ims (good ++ bad) /\ (length bad < length good)%nat) -> (forall im, In im good -> a <= px im i j <= b) ->
  exists v, r_px r i j = Some v /\ a <= v <= b.
Proof.
  intros S E (bad & P & L) G. assert (N : ims <> []) by (intros ->; discriminate).
  destruct (combine_plain KMedian None t ims n m N S I) as (q & E' & X & Y & Q). rewrite E in E'. injection E' as <-.
  rewrite Q. cbn [used pixel_op]. assert (NV : values ims i j <> []) by (unfold values; destruct ims; [congruence|discriminate]).
  destruct (average_some HMedian _ NV) as (v & V). cbn [average] in V. exists v. split; [exact V|].
  assert (P' : Permutation (values ims i j) (values good i j ++ values bad i j)) by (unfold values; rewrite <- map_app; now apply Permutation_map).
  apply (median_majority (values ims i j) a b v); [|exact V].
  rewrite (Permutation_length (filter_perm (inside a b) _ _ P')), (Permutation_length P'), filter_app, !app_length.
  rewrite (filter_all (inside a b) (values good i j)).
  - unfold values. rewrite !map_length. lia.
  - intros x Hx. unfold values in Hx. apply in_map_iff in Hx. destruct Hx as (im & <- & I'). apply inside_spec. now apply G.
Qed.
(** the mean and the median, the smallest and the largest stay between the bounds of the images *)
Theorem C86_bounds k t ims n m r i j a b : In k [KMean; KMedian; KMin; KMax] -> same_shape n m ims -> combineImages k None [] t ims = inl r ->
  (forall im, In im ims -> a <= px im i j <= b) -> exists v, r_px r i j = Some v /\ a <= v <= b.
Proof.
  intros K S E G. assert (N : ims <> []) by (intros ->; discriminate).
  assert (K' : named k /\ applicable k (length ims)) by (destruct K as [<-|[<-|[<-|[<-|[]]]]]; split; try exact I; cbn; auto 6).
  destruct (C86_pixels k t ims n m N S (proj2 K')) as (q & E' & X & Y & Q). rewrite E in E'. injection E' as <-.
  destruct (combine_plain k None t ims n m N S (proj2 K')) as (q & E' & _ & _ & Q'). rewrite E in E'. injection E' as <-.
  destruct (Q i j) as (v & V & C). exists v. split; [exact V|]. rewrite Q' in V.
  assert (B : forall x, In x (values ims i j) -> a <= x <= b) by (unfold values; intros x Hx; apply in_map_iff in Hx; destruct Hx as (im & <- & I'); now apply G).
  destruct K as [<-|[<-|[<-|[<-|[]]]]]; cbn [used pixel_op] in V.
  - now apply (mean_in _ a b v B). - now apply (median_in _ a b v B).
  - apply B. now apply amin_spec. - apply B. now apply amax_spec.
Qed.
(** copies of one image give that image back *)
Theorem C86_copies k t c im : In k [KMean; KMedian; KMin; KMax] ->
  exists r, combineImages k None [] t (repeat im (S c)) = inl r /\ r_nx r = nx im /\ r_ny r = ny im /\ forall i j, r_px r i j = Some (px im i j).
Proof.
  intros K. assert (S : same_shape (nx im) (ny im) (repeat im (Datatypes.S c))) by (intros a A; apply repeat_spec in A; now subst).
  assert (A : applicable k (length (repeat im (Datatypes.S c)))) by (destruct K as [<-|[<-|[<-|[<-|[]]]]]; exact I).
  destruct (C86_pixels k t (repeat im (Datatypes.S c)) (nx im) (ny im)) as (r & E & X & Y & P); [discriminate|exact S|exact A|]. exists r. repeat split; try assumption. intros i j.
  destruct (C86_bounds k t _ _ _ r i j (px im i j) (px im i j) K S E) as (v & V & B); [intros a Ha; apply repeat_spec in Ha; subst; lra|].
  rewrite V. f_equal. lra.
Qed.
(** the sum is the number of images times the mean; equal weights of one over that number give the mean *)
Theorem C86_sum t ims n m rs rm i j : same_shape n m ims -> combineImages KSum None [] t ims = inl rs -> combineImages KMean None [] t ims = inl rm ->
  exists s v, r_px rs i j = Some s /\ r_px rm i j = Some v /\ s = INR (length ims) * v.
Proof.
  intros S E1 E2. assert (N : ims <> []) by (intros ->; discriminate).
  destruct (C86_pixels KSum t ims n m N S I) as (q & E & _ & _ & Q1). rewrite E1 in E. injection E as <-.
  destruct (C86_pixels KMean t ims n m N S I) as (q & E & _ & _ & Q2). rewrite E2 in E. injection E as <-.
  destruct (Q1 i j) as (s & V1 & C1), (Q2 i j) as (v & V2 & C2). exists s, v. repeat split; try assumption.
  cbn [combined is_average] in C1, C2. destruct C2 as (_ & C2). unfold values in C2 at 1. rewrite map_length in C2. rewrite C1, <- C2. lra.
Qed.
Theorem C86_equal_weights t ims n m rw rm i j : same_shape n m ims ->
  combineImages (KWeights (repeat (/ INR (length ims)) (length ims))) None [] t ims = inl rw -> combineImages KMean None [] t ims = inl rm ->
  r_px rw i j = r_px rm i j.
Proof.
  intros S E1 E2. assert (N : ims <> []) by (intros ->; discriminate). set (k := KWeights _) in *.
  destruct (C86_pixels k t ims n m N S ltac:(apply repeat_length)) as (q & E & _ & _ & Q1). rewrite E1 in E. injection E as <-.
  destruct (C86_pixels KMean t ims n m N S I) as (q & E & _ & _ & Q2). rewrite E2 in E. injection E as <-.
  destruct (Q1 i j) as (s & V1 & C1), (Q2 i j) as (v & V2 & C2). rewrite V1, V2. f_equal.
  unfold k in C1. cbn [combined is_average] in C1, C2. destruct C2 as (_ & C2). unfold values in C2 at 1. rewrite map_length in C2.
  assert (L : 0 < INR (length ims)) by (apply lt_0_INR; destruct ims; [congruence|cbn; lia]).
  assert (LV : length (values ims i j) = length ims) by (unfold values; apply map_length).
  assert (R1 : forall (c : R) (l : list R) (z : nat), (length l <= z)%nat -> fold_right Rplus 0 (map (fun n => nth n (repeat c z) 0 * nth n l 0) (seq 0 (length l))) = c * fold_right Rplus 0 l).
  { intros c l. induction l as [|x l IH]; intros z Z; cbn [length seq map fold_right] in *; [lra|]. destruct z as [|z]; [lia|].
    rewrite <- seq_shift, map_map. cbn [repeat nth]. rewrite IH by lia. lra. }
  rewrite R1 in C1 by lia. rewrite C1, <- C2. field. lra.
Qed.
Lemma op_affine (k : combining) a b l : In k [KMean; KMedian] -> pixel_op k (map (fun x => a * x + b) l) = option_map (fun x => a * x + b) (pixel_op k l).
Proof. intros [<-|[<-|[]]]; cbn [pixel_op]; [apply mean_affine|apply median_affine]. Qed.
(** a change of zero level and unit of all images changes the mean and the median in the same way *)
Theorem C86_units k t ims n m r a b : In k [KMean; KMedian] -> same_shape n m ims -> combineImages k None [] t ims = inl r ->
  exists r', combineImages k None [] t (map (amap (fun x => a * x + b)) ims) = inl r' /\
    forall i j, exists v, r_px r i j = Some v /\ r_px r' i j = Some (a * v + b).
Proof.
  intros K S E. assert (N : ims <> []) by (intros ->; discriminate).
  assert (A : forall n, applicable k n) by (intros; destruct K as [<-|[<-|[]]]; exact I).
  destruct (combine_plain k None t ims n m N S (A _)) as (q & E' & _ & _ & Q). rewrite E in E'. injection E' as <-.
  destruct (combine_plain k None t (map (amap (fun x => a * x + b)) ims) n m) as (q & E' & _ & _ & Q'); [destruct ims; [congruence|discriminate]| |apply A|].
  - intros im I'. apply in_map_iff in I'. destruct I' as (im' & <- & I'). exact (S im' I').
  - exists q. split; [exact E'|]. intros i j. rewrite Q, Q'.
    replace (used k None (values (map (amap (fun x => a * x + b)) ims) i j)) with (map (fun x => a * x + b) (used k None (values ims i j)))
      by (destruct K as [<-|[<-|[]]]; unfold values; cbn [used]; rewrite !map_map; reflexivity).
    rewrite op_affine by exact K. replace (used k None (values ims i j)) with (values ims i j) by (destruct k; reflexivity).
    destruct (op_some k (values ims i j)) as (v & V); [unfold values; destruct ims; [congruence|discriminate]|apply A|]. exists v. rewrite V. split; reflexivity.
Qed.
Example C86_case : exists r, combineImages KMedian None [] true [Arr 1 1 (fun _ _ => 5); Arr 1 1 (fun _ _ => 900); Arr 1 1 (fun _ _ => 6)] = inl r /\
  (exists bad, Permutation [Arr 1 1 (fun _ _ => 5); Arr 1 1 (fun _ _ => 900); Arr 1 1 (fun _ _ => 6)] ([Arr 1 1 (fun _ _ => 5); Arr 1 1 (fun _ _ => 6)] ++ bad) /\ (length bad < 2)%nat).
Proof. eexists. split; [reflexivity|]. exists [Arr 1 1 (fun _ _ => 900)]. split; [|cbn; lia]. cbn [app]. constructor. apply perm_swap. Qed.
