(** * CcdClip: replacing outlying pixels, statistics and offsets (C83, C84) *)
From Coq Require Import Reals ZArith List Bool Arith Lia Lra Psatz Permutation Sorted.
From Verif Require Import PyBase AlgModel AlgClip CcdModel CcdRegion CcdEdit.
Import ListNotations.
Open Scope R_scope.

(** ** Specification: the pixels of [d] satisfying [P] become [v], the others stay *)
Definition replaced (P : R -> Prop) (v : R) (d d' : arr) : Prop :=
  nx d' = nx d /\ ny d' = ny d /\
  forall i j, pixel (nx d) (ny d) i j -> (P (px d i j) -> px d' i j = v) /\ (~ P (px d i j) -> px d' i j = px d i j).
(** [n] of the pixels of [d] satisfy [P]: they can be listed without repetition *)
Definition number (P : R -> Prop) (d : arr) (n : nat) : Prop :=
  exists l : list (nat * nat), NoDup l /\ length l = n /\
    forall i j, In (i, j) l <-> pixel (nx d) (ny d) i j /\ P (px d i j).
Definition total (l : list nat) : nat := fold_right Nat.add 0%nat l.

(** ** Editing the active data *)
Lemma bound_le n z : (bound n z <= n)%nat.
Proof. unfold bound. destruct (Z.ltb_spec z 0); lia. Qed.
Lemma data_edit m f : nx (data (edit m f)) = nx (data m) /\ ny (data (edit m f)) = ny (data m) /\
  forall i j, pixel (nx (data m)) (ny (data m)) i j -> px (data (edit m f)) i j = f i j (px (data m) i j).
Proof.
  set (d := Arr (nx (data m)) (ny (data m)) (fun i j => f i j (px (data m) i j))).
  destruct (view m) as [r|] eqn:V.
  - assert (D : data m = extract m r) by (unfold data; now rewrite V).
    assert (E : data (edit m f) = extract (apply_array m r d) r) by (unfold edit; rewrite V; unfold data at 1; change (view (apply_array m r _)) with (view m); rewrite V; reflexivity).
    rewrite E. destruct r as [[[[xl xu] yl] yu]|].
    + split; [|split]; [rewrite D; reflexivity|rewrite D; reflexivity|].
      intros i j (I & J). cbn [extract apply_array with_store store put sub px nx ny].
      assert (I' : (i < len (nx (store m)) xl xu)%nat) by (rewrite D in I; exact I). assert (J' : (j < len (ny (store m)) yl yu)%nat) by (rewrite D in J; exact J).
      unfold low, len in *.
      replace (within (bound (nx (store m)) xl) (bound (nx (store m)) xu - bound (nx (store m)) xl) (bound (nx (store m)) xl + i)) with true by (symmetry; apply within_spec; lia).
      replace (within (bound (ny (store m)) yl) (bound (ny (store m)) yu - bound (ny (store m)) yl) (bound (ny (store m)) yl + j)) with true by (symmetry; apply within_spec; lia).
      cbn [andb]. replace (bound (nx (store m)) xl + i - bound (nx (store m)) xl)%nat with i by lia.
      replace (bound (ny (store m)) yl + j - bound (ny (store m)) yl)%nat with j by lia. reflexivity.
    + split; [|split]; [rewrite D; reflexivity|rewrite D; reflexivity|]. intros i j _. reflexivity.
  - assert (E : data (edit m f) = d) by (unfold edit; rewrite V; reflexivity). rewrite E. split; [reflexivity|]. split; [reflexivity|]. intros; reflexivity.
Qed.
Lemma in_ravel a x : In x (ravel a) <-> exists i j, pixel (nx a) (ny a) i j /\ x = px a i j.
Proof.
  unfold ravel, pixel. rewrite in_flat_map. split.
  - intros (i & I & H). apply in_map_iff in H. destruct H as (j & <- & J). apply in_seq in I, J. exists i, j. split; [lia|reflexivity].
  - intros (i & j & (I & J) & ->). exists i. split; [apply in_seq; lia|]. apply in_map_iff. exists j. split; [reflexivity|apply in_seq; lia].
Qed.
(** counting by columns and by rows *)
Definition pairs (a : arr) (c : R -> bool) : list (nat * nat) :=
  flat_map (fun j => map (fun i => (i, j)) (filter (fun i => c (px a i j)) (seq 0 (nx a)))) (seq 0 (ny a)).
Lemma pairs_total a c : length (pairs a c) = total (column_counts a c).
Proof.
  unfold pairs, column_counts, total. induction (seq 0 (ny a)) as [|j l IH]; [reflexivity|].
  cbn [flat_map map fold_right]. now rewrite app_length, map_length, IH.
Qed.
Lemma pairs_in a c i j : In (i, j) (pairs a c) <-> pixel (nx a) (ny a) i j /\ c (px a i j) = true.
Proof.
  unfold pairs, pixel. rewrite in_flat_map. split.
  - intros (j' & J & H). apply in_map_iff in H. destruct H as (i' & E & I). injection E as -> ->. apply filter_In in I. destruct I as (I & C).
    apply in_seq in I, J. split; [lia|exact C].
  - intros ((I & J) & C). exists j. split; [apply in_seq; lia|]. apply in_map_iff. exists i. split; [reflexivity|]. apply filter_In. split; [apply in_seq; lia|exact C].
Qed.
Lemma nodup_flat {A B} (f : A -> list B) (l : list A) : NoDup l -> (forall a, In a l -> NoDup (f a)) -> (forall a b x, In a l -> In b l -> In x (f a) -> In x (f b) -> a = b) -> NoDup (flat_map f l).
Proof.
  induction l as [|a l IH]; intros N F D; cbn [flat_map]; [constructor|]. inversion N as [|? ? N1 N2]; subst.
  assert (G : NoDup (f a)) by (apply F; now left).
  assert (K : NoDup (flat_map f l)) by (apply IH; [exact N2|intros; apply F; now right|intros b1 b2 x H1 H2; apply D; now right]).
  clear IH F. revert G. assert (X : forall x, In x (f a) -> ~ In x (flat_map f l)).
  { intros x H1 H2. apply in_flat_map in H2. destruct H2 as (b & H2 & H3). apply N1. rewrite (D a b x); auto; [now left|now right]. }
  revert X. induction (f a) as [|y q IHq]; intros X G; [exact K|]. cbn [app]. inversion G; subst. constructor.
  - rewrite in_app_iff. intros [H|H]; [contradiction|]. apply (X y); [now left|exact H].
  - apply IHq; [intros x H; apply X; now right|assumption].
Qed.
Lemma pairs_nodup a c : NoDup (pairs a c).
Proof.
  unfold pairs. apply nodup_flat; [apply seq_NoDup| |].
  - intros j J. apply FinFun.Injective_map_NoDup; [intros x y E; now injection E|]. apply NoDup_filter, seq_NoDup.
  - intros j k x J K H1 H2. apply in_map_iff in H1, H2. destruct H1 as (i1 & <- & _), H2 as (i2 & E & _). now injection E.
Qed.
Lemma count_number a c P : (forall x, c x = true <-> P x) -> number P a (total (column_counts a c)).
Proof.
  intros H. exists (pairs a c). split; [apply pairs_nodup|]. split; [apply pairs_total|]. intros i j. rewrite pairs_in, H. reflexivity.
Qed.
Lemma column_length a c : length (column_counts a c) = ny a.
Proof. unfold column_counts. now rewrite map_length, seq_length. Qed.

(** ** Averages lie between the extremes *)
Lemma sorted_in l x : In x (sort l) <-> In x l.
Proof. split; intros H; [apply (Permutation_in x (Permutation_sym (sort_perm l)) H)|apply (Permutation_in x (sort_perm l) H)]. Qed.
Lemma median_in l a b v : (forall x, In x l -> a <= x <= b) -> median l = Some v -> a <= v <= b.
Proof.
  intros H E. destruct l as [|y r] eqn:L; [discriminate|]. rewrite <- L in *. rewrite median_some in E by now rewrite L. injection E as <-.
  assert (N : (0 < length l)%nat) by (rewrite L; cbn; lia).
  assert (G : forall k, (k < length l)%nat -> a <= nth k (sort l) 0 <= b).
  { intros k K. apply H, sorted_in. apply nth_In. now rewrite sort_length. }
  assert (H1 : (length l / 2 < length l)%nat) by (apply Nat.div_lt; lia).
  change (fst (Nat.divmod (length l) 1 0 1)) with (length l / 2)%nat. pose proof (G _ H1) as G1. destruct (Nat.odd (length l)); [exact G1|]. pose proof (G (length l / 2 - 1)%nat ltac:(lia)) as G2. split; lra.
Qed.
Lemma mean_in l a b v : (forall x, In x l -> a <= x <= b) -> mean l = Some v -> a <= v <= b.
Proof.
  intros H E. destruct l as [|y r] eqn:L; [discriminate|]. rewrite <- L in *. rewrite mean_some in E by now rewrite L. injection E as <-.
  assert (N : 0 < rlen l) by (apply rlen_pos; now rewrite L).
  assert (A : rlen l * a <= rsum (map (fun x => x) l)) by (apply rsum_ge; intros x X; apply H, X).
  assert (B : rlen l * (- b) <= rsum (map (fun x => - x) l)) by (apply rsum_ge; intros x X; destruct (H x X); lra).
  rewrite map_id in A. assert (S : rsum (map (fun x => - x) l) = - rsum l).
  { rewrite (map_ext (fun x => - x) (fun x => -1 * x)) by (intros; lra). rewrite rsum_scale. lra. }
  rewrite S in B. split; apply (Rmult_le_reg_l (rlen l) _ _ N); unfold Rdiv; replace (rlen l * (rsum l * / rlen l)) with (rsum l) by (field; lra); lra.
Qed.

(** ** C83 *)
Lemma repl_spec m act c m' n : repl_inds m act c = (m', Counts n) ->
  n = column_counts (data m) c /\ changed m' = true /\
  ((exists v, replaced (fun x => c x = true) v (data m) (data m') /\
      match act with AValue w => v = w | AMedian => median (ravel (data m)) = Some v | AMean => mean (ravel (data m)) = Some v
      | ANoclipMedian => median (kept (data m) c) = Some v | ANoclipMean => mean (kept (data m) c) = Some v
      | AFullMedian => exists s, snd (fullStats m) = inl s /\ v = s_median s | AFullMean => exists s, snd (fullStats m) = inl s /\ v = s_mean s | ABad => False end) \/
   ((forall x, In x (ravel (data m)) -> c x = false) /\ data m' = data m)).
Proof.
  assert (RE : forall m1 v, data m1 = data m -> replaced (fun x => c x = true) v (data m) (data (with_changed (edit m1 (fun _ _ x => if c x then v else x)) true))).
  { intros m1 v E. change (data (with_changed ?x true)) with (data x). destruct (data_edit m1 (fun _ _ x => if c x then v else x)) as (A & B & C).
    rewrite E in *. unfold replaced. split; [exact A|]. split; [exact B|]. intros i j P. rewrite C by exact P. split; intros H; [now rewrite H|]. destruct (c (px (data m) i j)); congruence. }
  assert (G : forall m1 v, data m1 = data m ->
    match v with
      | Some v => (with_changed (edit m1 (fun _ _ x => if c x then v else x)) true, Counts (column_counts (data m) c))
      | None => if existsb c (ravel (data m)) then (m1, NotANumber) else (with_changed m1 true, Counts (column_counts (data m) c)) end = (m', Counts n) ->
    n = column_counts (data m) c /\ changed m' = true /\
    ((exists w, replaced (fun x => c x = true) w (data m) (data m') /\ v = Some w) \/ ((forall x, In x (ravel (data m)) -> c x = false) /\ data m' = data m))).
  { intros m1 v E H. destruct v as [v|].
    - injection H as <- <-. split; [reflexivity|]. split; [reflexivity|]. left. exists v. split; [now apply RE|reflexivity].
    - destruct (existsb c (ravel (data m))) eqn:X; [discriminate|]. injection H as <- <-. split; [reflexivity|]. split; [reflexivity|]. right.
      split; [|exact E]. intros x I. destruct (c x) eqn:CX; [|reflexivity]. exfalso. apply not_true_iff_false in X. apply X. apply existsb_exists. eauto. }
  assert (FD : data (fst (fullStats m)) = data m).
  { unfold data, extract. destruct (full_view m) as (-> & _ & ->). now rewrite full_store. }
  unfold repl_inds. cbv zeta. intros H.
  destruct act; try discriminate H;
    try (apply (G m _ eq_refl) in H; destruct H as (A & B & [(w & C & D)|C]); split; auto; split; auto; left; exists w; split; auto; fail);
    try (apply (G m (Some v) eq_refl) in H; destruct H as (A & B & [(w & C & D)|C]); split; auto; split; auto; left; exists w; split; auto; congruence);
    (destruct (fullStats m) as [m1 [s|e]]; cbn [fst snd] in *; [|discriminate]; injection H as <- <-; split; [reflexivity|]; split; [reflexivity|]; left;
      eexists; (split; [now apply RE|]); eexists; split; reflexivity).
Qed.
Lemma outside_spec lo hi x : outside lo hi x = true <-> x < lo \/ hi < x.
Proof. unfold outside, Rltb. destruct (Rlt_dec hi x), (Rlt_dec x lo); cbn; split; intros; auto; try lra; discriminate. Qed.
Lemma kept_in a lo hi x : In x (kept a (outside lo hi)) -> lo <= x <= hi.
Proof.
  unfold kept. intros H. apply filter_In in H. destruct H as (_ & H). apply negb_true_iff in H. apply not_true_iff_false in H. rewrite outside_spec in H. lra.
Qed.
Definition replaced_iff (P Q : R -> Prop) v d d' : (forall x, P x <-> Q x) -> replaced P v d d' -> replaced Q v d d'.
Proof. intros E (A & B & C). split; [exact A|]. split; [exact B|]. intros i j H. destruct (C i j H) as (C1 & C2). split; intros K; [apply C1, E, K|apply C2; rewrite E; exact K]. Qed.

(** Clipping at a threshold replaces exactly the pixels on the wrong side of it; the numbers returned, one per
    column, add up to the number of pixels replaced. *)
Definition side (c : comparison) (t x : R) : Prop :=
  match c with CLt => x < t | CGt => x > t | CGe => x >= t | CLe => x <= t | CBad => False end.
Lemma compares_spec c t x : compares c t x = true <-> side c t x.
Proof. destruct c; cbn [compares side]; unfold Rltb, Rleb; try destruct (Rlt_dec _ _); try destruct (Rle_dec _ _); split; intros; try reflexivity; try lra; try discriminate; contradiction. Qed.
Theorem C83_threshold m t v c m' n : clipThreshold m t (AValue v) c = (m', Counts n) ->
  replaced (side c t) v (data m) (data m') /\ length n = ny (data m) /\ number (side c t) (data m) (total n).
Proof.
  intros H. assert (H' : repl_inds m (AValue v) (compares c t) = (m', Counts n)) by (destruct c; [exact H..|discriminate H]). clear H.
  apply repl_spec in H'. destruct H' as (-> & _ & [(w & A & ->)|(A & B)]).
  - split; [apply (replaced_iff _ _ _ _ _ (compares_spec c t) A)|]. split; [apply column_length|apply count_number, compares_spec].
  - split; [|split; [apply column_length|apply count_number, compares_spec]]. rewrite B. split; [reflexivity|]. split; [reflexivity|].
    intros i j P. split; [|reflexivity]. intros S. exfalso. apply compares_spec in S. rewrite A in S; [discriminate|]. apply in_ravel. eauto.
Qed.
(** Clipping outliers by value leaves the pixels inside the limits alone, brings all others inside (for the
    replacement by an average of the pixels kept, or by a value inside), and a second clip finds nothing. *)
Theorem C83_outliers m a b act m' n : clipOutliers m (LPair a b) false act = (m', Counts n) ->
  act = ANoclipMedian \/ act = ANoclipMean \/ (exists v, act = AValue v /\ a <= v <= b) ->
  nx (data m') = nx (data m) /\ ny (data m') = ny (data m) /\
  (forall i j, pixel (nx (data m)) (ny (data m)) i j ->
     a <= px (data m') i j <= b /\ (a <= px (data m) i j <= b -> px (data m') i j = px (data m) i j)) /\
  number (fun x => x < a \/ b < x) (data m) (total n) /\
  forall m2 n2, clipOutliers m' (LPair a b) false act = (m2, Counts n2) -> total n2 = 0%nat /\
    forall i j, pixel (nx (data m)) (ny (data m)) i j -> px (data m2) i j = px (data m') i j.
Proof.
  intros H ACT. cbn [clipOutliers] in H.
  assert (G : nx (data m') = nx (data m) /\ ny (data m') = ny (data m) /\
    forall i j, pixel (nx (data m)) (ny (data m)) i j -> a <= px (data m') i j <= b /\ (a <= px (data m) i j <= b -> px (data m') i j = px (data m) i j)).
  { pose proof (repl_spec m act _ m' n H) as (_ & _ & [(w & (A1 & A2 & A3) & W)|(A & B)]).
    - assert (WI : a <= w <= b).
      { destruct ACT as [-> | [-> | (v & -> & V)]].
        - apply (median_in _ a b w) in W; [exact W|]. intros x. apply kept_in.
        - apply (mean_in _ a b w) in W; [exact W|]. intros x. apply kept_in.
        - now subst. }
      split; [exact A1|]. split; [exact A2|]. intros i j P. destruct (A3 i j P) as (B1 & B2). rewrite outside_spec in B1, B2.
      destruct (Rlt_dec (px (data m) i j) a); [rewrite B1 by auto; split; [exact WI|lra]|].
      destruct (Rlt_dec b (px (data m) i j)); [rewrite B1 by auto; split; [exact WI|lra]|]. rewrite B2 by tauto. split; [lra|reflexivity].
    - rewrite B. split; [reflexivity|]. split; [reflexivity|]. intros i j P. split; [|auto].
      assert (X : outside a b (px (data m) i j) = false) by (apply A, in_ravel; eauto).
      apply not_true_iff_false in X. rewrite outside_spec in X. lra. }
  destruct G as (G1 & G2 & G3). split; [exact G1|]. split; [exact G2|]. split; [exact G3|]. split.
  - pose proof (repl_spec m act _ m' n H) as (-> & _). apply count_number. intros x. apply outside_spec.
  - intros m2 n2 H2. cbn [clipOutliers] in H2. pose proof (repl_spec m' act _ m2 n2 H2) as (-> & _ & R).
    assert (NO : forall i j, pixel (nx (data m)) (ny (data m)) i j -> outside a b (px (data m') i j) = false).
    { intros i j P. apply not_true_iff_false. rewrite outside_spec. destruct (G3 i j P) as ((L & U) & _). lra. }
    split.
    + rewrite <- pairs_total. destruct (pairs (data m') (outside a b)) as [|[i j] q] eqn:E; [reflexivity|]. exfalso.
      assert (I : In (i, j) (pairs (data m') (outside a b))) by (rewrite E; now left). apply pairs_in in I. destruct I as (I1 & I2).
      rewrite G1, G2 in I1. rewrite NO in I2 by exact I1. discriminate.
    + intros i j P. destruct R as [(w & (_ & _ & R) & _)|(_ & ->)]; [|reflexivity]. assert (P' : pixel (nx (data m')) (ny (data m')) i j) by (rewrite G1, G2; exact P). apply (R i j P'). now rewrite NO.
Qed.
(** Limits in percent are taken between the faintest and the brightest pixel of the active region. *)
Theorem C83_percent m a b act lo hi : In lo (ravel (data m)) -> In hi (ravel (data m)) -> (forall x, In x (ravel (data m)) -> lo <= x <= hi) ->
  clipOutliers m (LPair a b) true act = clipOutliers m (LPair (lo + a / 100 * (hi - lo)) (lo + b / 100 * (hi - lo))) false act.
Proof.
  intros L H B. assert (MN : forall l d, (forall x, In x l -> lmin l d <= x) /\ lmin l d <= d /\ (lmin l d = d \/ In (lmin l d) l)).
  { induction l as [|x l IH]; intros d; [repeat split; auto; [intros x []|cbn; lra]|]. cbn [lmin]. destruct (IH (Rmin d x)) as (A & C & D).
    pose proof (Rmin_l d x). pose proof (Rmin_r d x). split; [intros y [<-|Y]; [lra|now apply A]|]. split; [lra|].
    destruct D as [D|D]; [|right; now right]. rewrite D. unfold Rmin. destruct (Rle_dec d x); [now left|right; now left]. }
  assert (MX : forall l d, (forall x, In x l -> x <= lmax l d) /\ d <= lmax l d /\ (lmax l d = d \/ In (lmax l d) l)).
  { induction l as [|x l IH]; intros d; [repeat split; auto; [intros x []|cbn; lra]|]. cbn [lmax]. destruct (IH (Rmax d x)) as (A & C & D).
    pose proof (Rmax_l d x). pose proof (Rmax_r d x). split; [intros y [<-|Y]; [lra|now apply A]|]. split; [lra|].
    destruct D as [D|D]; [|right; now right]. rewrite D. unfold Rmax. destruct (Rle_dec d x); [right; now left|now left]. }
  cbn [clipOutliers]. destruct (ravel (data m)) as [|y l] eqn:E; [contradiction|]. cbn [amin amax].
  destruct (MN l y) as (A1 & A2 & A3). destruct (MX l y) as (B1 & B2 & B3).
  assert (EL : lmin l y = lo). { apply Rle_antisym; [destruct L as [<-|L]; auto|]. destruct A3 as [->|A3]; apply B; [now left|now right]. }
  assert (EH : lmax l y = hi). { apply Rle_antisym; [|destruct H as [<-|H]; auto]. destruct B3 as [->|B3]; apply B; [now left|now right]. }
  rewrite EL, EH. replace (lo + a * (hi - lo) / 100) with (lo + a / 100 * (hi - lo)) by field. now replace (lo + b * (hi - lo) / 100) with (lo + b / 100 * (hi - lo)) by field.
Qed.
Lemma filter_flat {A} (f : nat -> list A) (p : A -> bool) l : filter p (flat_map f l) = flat_map (fun i => filter p (f i)) l.
Proof. induction l as [|x l IH]; [reflexivity|]. cbn [flat_map]. now rewrite filter_app, IH. Qed.
Lemma length_flat {A} (f : nat -> list A) l : length (flat_map f l) = total (map (fun i => length (f i)) l).
Proof. induction l as [|x l IH]; [reflexivity|]. cbn [flat_map map total fold_right]. now rewrite app_length, IH. Qed.
Lemma filter_map_len {A} (g : nat -> A) (p : A -> bool) l : length (filter p (map g l)) = length (filter (fun i => p (g i)) l).
Proof. induction l as [|x l IH]; [reflexivity|]. cbn [map filter]. destruct (p (g x)); cbn [length]; now rewrite IH. Qed.
Lemma total_zero {A} (l : list A) : total (map (fun _ => 0%nat) l) = 0%nat. Proof. induction l; cbn; auto. Qed.
Lemma total_add {A} (f g : A -> nat) l : total (map (fun i => (f i + g i)%nat) l) = (total (map f l) + total (map g l))%nat.
Proof. induction l as [|x l IH]; [reflexivity|]. cbn [map total fold_right]. unfold total in IH. rewrite IH. unfold total. lia. Qed.
Lemma count_filter {A} (p : A -> bool) l : length (filter p l) = total (map (fun i => if p i then 1%nat else 0%nat) l).
Proof. induction l as [|x l IH]; [reflexivity|]. cbn [filter map total fold_right]. destruct (p x); cbn [length]; unfold total in IH; rewrite IH; reflexivity. Qed.
Lemma swap_total (f : nat -> nat -> nat) l k : total (map (fun i => total (map (f i) k)) l) = total (map (fun j => total (map (fun i => f i j) l)) k).
Proof.
  induction l as [|x l IH]; cbn [map].
  - symmetry. apply total_zero.
  - transitivity (total (map (f x) k) + total (map (fun i => total (map (f i) k)) l))%nat; [reflexivity|]. rewrite IH, <- total_add. reflexivity.
Qed.
Lemma ravel_count a c : length (filter c (ravel a)) = total (column_counts a c).
Proof.
  unfold ravel. rewrite filter_flat, length_flat.
  rewrite (map_ext _ (fun i => total (map (fun j => if c (px a i j) then 1%nat else 0%nat) (seq 0 (ny a))))).
  2: { intros i. rewrite filter_map_len, count_filter. reflexivity. }
  rewrite swap_total. unfold column_counts. f_equal. apply map_ext. intros j. symmetry. apply count_filter.
Qed.
Lemma sq_nn (x : R) : 0 <= x * x. Proof. apply (Rle_0_sqr x). Qed.
Lemma cheb (l : list R) (mu v k : R) : v * rlen l = rsum (map (fun x => (x - mu) * (x - mu)) l) -> 0 <= v -> 0 < k ->
  INR (length (filter (outside (mu - k * sqrt v) (mu + k * sqrt v)) l)) * (k * k) <= rlen l.
Proof.
  intros S V K. set (c := outside _ _).
  assert (SQ : sqrt v * sqrt v = v) by now apply sqrt_sqrt. pose proof (sqrt_pos v) as SP.
  assert (LB : forall q, INR (length (filter c q)) * (k * k * v) <= rsum (map (fun x => (x - mu) * (x - mu)) q)).
  { induction q as [|x q IH]; [unfold rsum; cbn [filter length map fold_right INR]; lra|].
    cbn [filter map]. change (rsum (?h :: ?t)) with (h + rsum t). destruct (c x) eqn:C.
    - cbn [length]. rewrite S_INR. unfold c in C. rewrite outside_spec in C. fold c in C.
      assert (k * k * v <= (x - mu) * (x - mu)). { rewrite <- SQ. assert (0 <= k * sqrt v) by nra. destruct C as [C|C]; nra. } lra.
    - pose proof (sq_nn (x - mu)). lra. }
  destruct V as [V|V].
  - specialize (LB l). rewrite <- S in LB. apply (Rmult_le_reg_r v); [exact V|]. lra.
  - assert (Z : forall q, rsum (map (fun x => (x - mu) * (x - mu)) q) = 0 -> filter c q = []).
    { induction q as [|x q IH]; [reflexivity|]. intros E. change (rsum (map (fun x => (x - mu) * (x - mu)) (x :: q))) with ((x - mu) * (x - mu) + rsum (map (fun x => (x - mu) * (x - mu)) q)) in E.
      assert (0 <= rsum (map (fun x => (x - mu) * (x - mu)) q)) by (apply rsum_nonneg; intros; apply sq_nn). pose proof (sq_nn (x - mu)).
      cbn [filter]. replace (c x) with false; [apply IH; lra|]. symmetry. apply not_true_iff_false. unfold c. rewrite outside_spec, <- V, sqrt_0. assert (x - mu = 0) by (apply Rsqr_0_uniq; unfold Rsqr; lra). lra. }
    rewrite Z by (rewrite <- S, <- V; lra). cbn [length INR]. unfold rlen. pose proof (pos_INR (length l)). lra.
Qed.
(** Clipping at [sigma] standard deviations of an unscaled image whose statistics have not been read before:
    exactly the pixels further than that from the mean are replaced, at most one in sigma squared of them, and
    the [fullsig] argument has no effect. *)
Theorem C83_sigma m sigma full act m' n mu v : scal m = Linear -> fstat m = CEmpty -> view m = Some None ->
  clipSigma m sigma full act = (m', Counts n) -> 0 < sigma ->
  mean (ravel (store m)) = Some mu -> var (ravel (store m)) = Some v ->
  number (fun x => x < mu - sigma * sqrt v \/ mu + sigma * sqrt v < x) (store m) (total n) /\
  INR (total n) * (sigma * sigma) <= INR (nx (store m) * ny (store m)) /\
  (exists w, replaced (fun x => x < mu - sigma * sqrt v \/ mu + sigma * sqrt v < x) w (store m) (store m')) /\
  forall full', clipSigma m sigma full' act = clipSigma m sigma full act.
Proof.
  intros L F V H SG M VR. unfold clipSigma in *. rewrite L in *. cbn [fwd] in *.
  assert (FS : exists s, fullStats m = (with_fstat m (CFull s), inl s) /\ s_mean s = mu /\ s_std s = sqrt v).
  { unfold fullStats. rewrite F, L. cbn [fwd]. rewrite map_id. destruct (ravel (store m)) as [|x r] eqn:E; [discriminate|].
    unfold stats_of. rewrite M. unfold std. rewrite VR. cbn [option_map amin amax]. destruct (median (x :: r)) eqn:MD; [|rewrite median_some in MD; discriminate].
    eexists. split; [reflexivity|]. split; reflexivity. }
  destruct FS as (s & FS & S1 & S2). rewrite FS in H |- *. rewrite S1, S2 in *.
  set (m0 := with_fstat m (CFull s)) in *. assert (D0 : data m0 = store m) by (unfold data, m0; cbn [with_fstat view]; rewrite V; reflexivity).
  pose proof (repl_spec m0 act _ m' n H) as (-> & _ & R). rewrite D0 in *.
  assert (CN : number (fun x => x < mu - sigma * sqrt v \/ mu + sigma * sqrt v < x) (store m) (total (column_counts (store m) (outside (mu - sigma * sqrt v) (mu + sigma * sqrt v))))) by (apply count_number; intros x; apply outside_spec).
  split; [exact CN|]. split.
  - rewrite <- ravel_count. assert (NE : ravel (store m) <> []) by (intros E; rewrite E in M; discriminate).
    destruct (var_mean _ NE) as (mu' & v' & E1 & E2 & E3 & E4). rewrite M in E1. rewrite VR in E2. injection E1 as <-. injection E2 as <-.
    pose proof (cheb (ravel (store m)) mu v sigma E3 E4 SG) as B. unfold rlen in B.
    replace (length (ravel (store m))) with (nx (store m) * ny (store m))%nat in B; [exact B|].
    unfold ravel. rewrite length_flat. rewrite (map_ext _ (fun _ => ny (store m))) by (intros i; now rewrite map_length, seq_length).
    rewrite <- (seq_length (nx (store m)) 0) at 1. induction (seq 0 (nx (store m))) as [|y q IH]; [reflexivity|]. cbn [length map total fold_right]. unfold total in IH. rewrite <- IH. lia.
  - split; [|reflexivity].
    assert (VS : data m' = store m').
    { assert (E : view m' = Some None). { pose proof (f_equal fst H) as HF. cbn [fst] in HF. rewrite <- HF. clear - V.
        assert (G : forall m1 (c : R -> bool) (w : R), view m1 = Some None -> view (with_changed (edit m1 (fun _ _ x => if c x then w else x)) true) = Some None) by (intros m1 c w E; cbn [with_changed view]; destruct (edit_fields m1 (fun _ _ x => if c x then w else x)) as (_ & _ & -> & _); exact E).
        assert (V0 : view m0 = Some None) by exact V. clearbody m0.
        unfold repl_inds. cbv zeta. pose proof (full_view m0) as (FV & _).
        destruct act; try exact V0; try (apply G; exact V0);
          try (destruct (fullStats m0) as [m1 [s1|e1]]; cbn [fst] in *; [apply G|]; congruence);
          (match goal with |- context[match ?x with Some _ => _ | None => _ end] => destruct x end; cbn [fst]; [apply G; exact V0|destruct (existsb _ _); exact V0]). }
      unfold data. now rewrite E. }
    rewrite VS in R. destruct R as [(w & R & _)|(R1 & R2)].
    + exists w. refine (replaced_iff _ _ _ _ _ _ R). intros x. apply outside_spec.
    + exists 0. rewrite R2. split; [reflexivity|]. split; [reflexivity|]. intros i j P. split; [|reflexivity]. intros O. exfalso.
      apply outside_spec in O. rewrite R1 in O; [discriminate|]. apply in_ravel. eauto.
Qed.
(** The replacement by the median of all pixels need not bring a pixel inside. *)
Theorem C83_median_refuted : exists m m' n, clipOutliers m (LPair 1 3) false AMedian = (m', Counts n) /\ total n = 2%nat /\ px (data m') 0 0 = 0.
Proof.
  set (a := Arr 3 1 (fun i _ => match i with 2%nat => 2 | _ => 0 end)).
  exists (Image a None (Some None) a Linear false CEmpty None false None None). cbn [clipOutliers].
  assert (MD : median (ravel a) = Some 0).
  { rewrite median_some by discriminate. replace (sort (ravel a)) with [0; 0; 2]; [reflexivity|]. symmetry. apply sort_eq; [reflexivity|].
    repeat constructor; lra. }
  assert (O0 : outside 1 3 0 = true) by (apply outside_spec; lra).
  assert (O2 : outside 1 3 2 = false) by (apply not_true_iff_false; rewrite outside_spec; lra).
  unfold repl_inds. cbv zeta. change (data (Image a None (Some None) a Linear false CEmpty None false None None)) with a. rewrite MD.
  eexists _, _. split; [reflexivity|]. split.
  - unfold column_counts. change (seq 0 (nx a)) with [0;1;2]%nat. change (seq 0 (ny a)) with [0]%nat. cbn [map filter]. change (px a 0 0) with 0. change (px a 1 0) with 0. change (px a 2 0) with 2. rewrite O0, O2. reflexivity.
  - unfold data, edit, data. cbn [view extract store apply_array with_store with_changed px nx ny]. change (px a 0 0) with 0. now rewrite O0.
Qed.
(** ** C84 *)
Lemma data_shift m v : let m' := with_changed (edit m (fun _ _ x => x - v)) true in
  nx (data m') = nx (data m) /\ ny (data m') = ny (data m) /\ forall i j, pixel (nx (data m)) (ny (data m)) i j -> px (data m') i j = px (data m) i j - v.
Proof. cbv zeta. change (data (with_changed ?x true)) with (data x). destruct (data_edit m (fun _ _ x => x - v)) as (A & B & C). auto. Qed.
Lemma amin_spec l v : amin l = Some v -> In v l /\ forall x, In x l -> v <= x.
Proof.
  assert (MN : forall l d, (forall x, In x l -> lmin l d <= x) /\ lmin l d <= d /\ (lmin l d = d \/ In (lmin l d) l)).
  { induction l0 as [|x l0 IH]; intros d; [repeat split; auto; [intros x []|cbn; lra]|]. cbn [lmin]. destruct (IH (Rmin d x)) as (A & C & D).
    pose proof (Rmin_l d x). pose proof (Rmin_r d x). split; [intros y [<-|Y]; [lra|now apply A]|]. split; [lra|].
    destruct D as [D|D]; [|right; now right]. rewrite D. unfold Rmin. destruct (Rle_dec d x); [now left|right; now left]. }
  destruct l as [|y l]; [discriminate|]. cbn [amin]. intros E. injection E as <-. destruct (MN l y) as (A & B & C). split.
  - destruct C as [->|C]; [now left|now right].
  - intros x [<-|X]; auto.
Qed.
(** Offsetting by a value subtracts it from every active pixel; by the minimum, the faintest active pixel becomes 0. *)
Theorem C84_offset m : (forall v m', offsetData m (OValue v) = (m', Done) -> forall i j, pixel (nx (data m)) (ny (data m)) i j -> px (data m') i j = px (data m) i j - v) /\
  (forall m', offsetData m OMin = (m', Done) ->
     (exists i j, pixel (nx (data m)) (ny (data m)) i j /\ px (data m') i j = 0) /\
     (forall i j, pixel (nx (data m)) (ny (data m)) i j -> 0 <= px (data m') i j) /\
     forall i j i' j', pixel (nx (data m)) (ny (data m)) i j -> pixel (nx (data m)) (ny (data m)) i' j' -> px (data m') i j - px (data m') i' j' = px (data m) i j - px (data m) i' j').
Proof.
  split.
  - intros v m' E. injection E as <-. apply data_shift.
  - intros m' E. unfold offsetData in E. destruct (amin (ravel (data m))) as [v|] eqn:A; [|discriminate]. injection E as <-.
    apply amin_spec in A. destruct A as (I & LE). apply in_ravel in I. destruct I as (i0 & j0 & P0 & ->).
    pose proof (data_shift m (px (data m) i0 j0 + 0)) as (_ & _ & D). cbv zeta in D. split.
    + exists i0, j0. split; [exact P0|]. rewrite D by exact P0. lra.
    + split.
      * intros i j P. rewrite D by exact P. specialize (LE (px (data m) i j)). assert (In (px (data m) i j) (ravel (data m))) by (apply in_ravel; eauto). specialize (LE H). lra.
      * intros i j i' j' P P'. rewrite !D by assumption. lra.
Qed.
(** The default offset, documented to put the faintest pixel at 1, always puts it at -1. *)
Theorem C84_minp1_refuted m m' : offsetData m OMinp1 = (m', Done) ->
  exists i j, pixel (nx (data m)) (ny (data m)) i j /\ px (data m') i j = Ropp 1.
Proof.
  intros E. unfold offsetData in E. destruct (amin (ravel (data m))) as [v|] eqn:A; [|discriminate]. injection E as <-.
  apply amin_spec in A. destruct A as (I & LE). apply in_ravel in I. destruct I as (i0 & j0 & P0 & ->).
  exists i0, j0. split; [exact P0|]. pose proof (data_shift m (px (data m) i0 j0 + 1)) as (_ & _ & D). cbv zeta in D. rewrite D by exact P0. lra.
Qed.
(** Statistics read after a successful applyChanges are those of the image as it then is, and lie in order. *)
Theorem C84_statistics m m1 m2 s f : applyChanges m = (m1, Done) -> fwd (scal m1) = Some f -> fullStats m1 = (m2, inl s) ->
  let l := map f (ravel (store m1)) in
  median l = Some (s_median s) /\ mean l = Some (s_mean s) /\ (exists v, var l = Some v /\ 0 <= v /\ s_std s = sqrt v) /\
  In (s_min s) l /\ In (s_max s) l /\ (forall x, In x l -> s_min s <= x <= s_max s) /\
  s_min s <= s_mean s <= s_max s /\ s_min s <= s_median s <= s_max s /\ store m2 = store m1.
Proof.
  intros A F S. cbv zeta.
  assert (E : fstat m1 = CEmpty).
  { unfold applyChanges in A. destruct (is_linear (scal m)).
    - cbn [fstat with_lstat with_changed] in A. destruct (fstat m); injection A as <-; try discriminate; reflexivity.
    - destruct (inv (scal m)); [|discriminate]. cbv zeta in A. destruct (_ && _); [|discriminate].
      cbn [fstat with_lstat with_changed apply_array with_store] in A. destruct (fstat m); injection A as <-; try discriminate; reflexivity. }
  unfold fullStats in S. rewrite E, F in S. set (l := map f (ravel (store m1))) in *. unfold stats_of in S.
  destruct (median l) as [md|] eqn:MD; [|discriminate]. destruct (mean l) as [mn|] eqn:ME; [|discriminate].
  unfold std in S. destruct (var l) as [v|] eqn:VA; [|discriminate]. cbn [option_map] in S.
  destruct (amin l) as [lo|] eqn:LO; [|discriminate]. destruct (amax l) as [hi|] eqn:HI; [|discriminate].
  injection S as <- <-. cbn [s_median s_mean s_std s_min s_max].
  apply amin_spec in LO. destruct LO as (L1 & L2).
  assert (H12 : In hi l /\ forall x, In x l -> x <= hi).
  { assert (MX : forall q d, (forall x, In x q -> x <= lmax q d) /\ d <= lmax q d /\ (lmax q d = d \/ In (lmax q d) q)).
    { induction q as [|x q IH]; intros d; [repeat split; auto; [intros x []|cbn; lra]|]. cbn [lmax]. destruct (IH (Rmax d x)) as (A' & C & D).
      pose proof (Rmax_l d x). pose proof (Rmax_r d x). split; [intros y [<-|Y]; [lra|now apply A']|]. split; [lra|].
      destruct D as [D|D]; [|right; now right]. rewrite D. unfold Rmax. destruct (Rle_dec d x); [right; now left|now left]. }
    destruct l as [|y q]; [discriminate|]. cbn [amax] in HI. injection HI as <-. destruct (MX q y) as (A' & B & C). split.
    - destruct C as [->|C]; [now left|now right].
    - intros x [<-|X]; auto. }
  destruct H12 as (H1 & H2).
  assert (NE : l <> []) by (intros Z; rewrite Z in L1; contradiction).
  destruct (var_mean l NE) as (mu' & v' & E1 & E2 & E3 & E4). rewrite VA in E2. injection E2 as <-.
  split; [reflexivity|]. split; [reflexivity|]. split; [exists v; auto|]. split; [exact L1|]. split; [exact H1|].
  split; [intros x X; split; auto|]. split; [|split; [|reflexivity]].
  - apply (mean_in l); [|exact ME]. intros x X. split; auto.
  - apply (median_in l); [|exact MD]. intros x X. split; auto.
Qed.
(** Edits of a linear image are not noticed by the statistics: they stay as first read. *)
Theorem C84_stale_refuted : exists m m1 m2 m3 s, step m FullStats = (m1, Seen s) /\ step m1 (Poke 0 0 5) = (m2, Done) /\ step m2 FullStats = (m3, Seen s) /\
  s_max s = 0 /\ px (store m2) 0 0 = 5.
Proof.
  set (a := Arr 1 1 (fun _ _ => 0)). set (s := Stats 0 (0 / 1) (sqrt (0 / 1)) 0 0).
  assert (SO : stats_of (ravel a) = Some (Stats 0 ((0 + 0) / 1) (sqrt (((0 - (0 + 0) / 1) * (0 - (0 + 0) / 1) + 0) / 1)) 0 0)) by reflexivity.
  exists (Image a None (Some None) a Linear false CEmpty None false None None).
  eexists _, _, _, _. split.
  - cbn [step]. unfold fullStats. cbn [fstat scal fwd store told]. rewrite map_id, SO. reflexivity.
  - split; [reflexivity|]. split; [reflexivity|]. split; reflexivity.
Qed.
Example C83_case : exists m m' n, let a := Arr 2 2 (fun i j => INR (i + 5 * j)) in
  m = Image a None (Some None) a Linear false CEmpty None false None None /\ clipThreshold m 4 (AValue 4) CGt = (m', Counts n) /\
  clipOutliers m (LPair 1 6) false ANoclipMean <> (m, Done) /\ mean (ravel (store m)) <> None /\ var (ravel (store m)) <> None.
Proof. do 3 eexists. cbv zeta. split; [reflexivity|]. split; [reflexivity|]. split; [|split; discriminate]. intros H. apply (f_equal snd) in H. cbn [clipOutliers] in H. unfold repl_inds in H. cbv zeta in H. destruct (mean _) in H; [discriminate|]. destruct (existsb _ _) in H; discriminate. Qed.
