(** * PcaProof: principal component analysis (C96) *)
From Coq Require Import List Bool Arith Reals ZArith Lia Lra Permutation Sorted.
From Verif Require Import PyBase AlgModel AlgClip PcaModel.
Import ListNotations.
Open Scope R_scope.

(** ** Specification *)
(** sums over 0 .. n-1 *)
Fixpoint total_to (n : nat) (f : nat -> R) : R := match n with O => 0 | S k => total_to k f + f k end.
(** a table of n points in p dimensions, no dimension constant *)
Definition table (rows : list (list R)) (p : nat) : Prop := forall r, In r rows -> List.length r = p.
Definition entry (rows : list (list R)) (i j : nat) : R := nth j (nth i rows []) 0.
Definition varied (rows : list (list R)) (p : nat) : Prop := forall j, (j < p)%nat -> exists i k, (i < List.length rows)%nat /\ (k < List.length rows)%nat /\ entry rows i j <> entry rows k j.
(** mean and variance of a dimension *)
Definition mean_of (n : nat) (x : nat -> R) (mu : R) : Prop := mu * INR n = total_to n x.
Definition var_of (n : nat) (x : nat -> R) (v : R) : Prop := exists mu, mean_of n x mu /\ v * INR n = total_to n (fun i => (x i - mu) * (x i - mu)).
(** the identity matrix; columns of V orthonormal, and rows too *)
Definition unit_ (i j : nat) : R := if Nat.eqb i j then 1 else 0.
Definition orthogonal (p : nat) (V : matrix) : Prop :=
  (forall c d, (c < p)%nat -> (d < p)%nat -> total_to p (fun j => V j c * V j d) = unit_ c d) /\
  (forall j k, (j < p)%nat -> (k < p)%nat -> total_to p (fun c => V j c * V k c) = unit_ j k).
(** V's columns are eigenvectors of C for the values vals *)
Definition eigensystem (p : nat) (C : matrix) (vals : list R) (V : matrix) : Prop :=
  List.length vals = p /\ forall j c, (j < p)%nat -> (c < p)%nat -> total_to p (fun k => C j k * V k c) = nth c vals 0 * V j c.
(** W is the inverse of the transpose of V *)
Definition inverts (p : nat) (W V : matrix) : Prop := forall j k, (j < p)%nat -> (k < p)%nat -> total_to p (fun c => W j c * V k c) = unit_ j k.

(** ** Sums *)
Lemma sum_S n f : sum (S n) f = sum n f + f n.
Proof. unfold sum. rewrite seq_S, map_app, rsum_app. cbn. ring. Qed.
Lemma sum_total n f : sum n f = total_to n f.
Proof. induction n as [|n IH]; [reflexivity|]. rewrite sum_S, IH. reflexivity. Qed.
Lemma tt_ext n f g : (forall i, (i < n)%nat -> f i = g i) -> total_to n f = total_to n g.
Proof. induction n as [|n IH]; intros H; [reflexivity|]. cbn. rewrite IH by (intros; apply H; lia). now rewrite H by lia. Qed.
Lemma tt_lin n c f : total_to n (fun i => c * f i) = c * total_to n f.
Proof. induction n as [|n IH]; cbn; [ring|]. rewrite IH. ring. Qed.
Lemma tt_plus n f g : total_to n (fun i => f i + g i) = total_to n f + total_to n g.
Proof. induction n as [|n IH]; cbn; [ring|]. rewrite IH. ring. Qed.
Lemma tt_minus n f g : total_to n (fun i => f i - g i) = total_to n f - total_to n g.
Proof. induction n as [|n IH]; cbn; [ring|]. rewrite IH. ring. Qed.
Lemma tt_const n c : total_to n (fun _ => c) = c * INR n.
Proof. induction n as [|n IH]; [cbn; ring|]. cbn [total_to]. rewrite IH, S_INR. ring. Qed.
Lemma tt_zero n f : (forall i, (i < n)%nat -> f i = 0) -> total_to n f = 0.
Proof. intros H. rewrite (tt_ext n f (fun _ => 0)) by exact H. rewrite tt_const. ring. Qed.
Lemma tt_swap n m f : total_to n (fun i => total_to m (fun j => f i j)) = total_to m (fun j => total_to n (fun i => f i j)).
Proof. induction n as [|n IH]; cbn; [rewrite tt_zero; auto|]. rewrite IH, <- tt_plus. reflexivity. Qed.
Lemma tt_unit p f k : (k < p)%nat -> total_to p (fun j => unit_ j k * f j) = f k.
Proof.
  induction p as [|p IH]; intros L; [lia|]. cbn [total_to]. destruct (Nat.eq_dec k p) as [->|E].
  - rewrite tt_zero by (intros i I'; unfold unit_; rewrite (proj2 (Nat.eqb_neq i p)) by lia; ring). unfold unit_. rewrite Nat.eqb_refl. ring.
  - rewrite IH by lia. unfold unit_. rewrite (proj2 (Nat.eqb_neq p k)) by lia. ring.
Qed.
Lemma tt_unit' p f k : (k < p)%nat -> total_to p (fun j => unit_ k j * f j) = f k.
Proof. intros L. rewrite <- (tt_unit p f k L). apply tt_ext. intros i _. unfold unit_. now rewrite Nat.eqb_sym. Qed.
Lemma tt_nonneg n f : (forall i, (i < n)%nat -> 0 <= f i) -> 0 <= total_to n f.
Proof. induction n as [|n IH]; intros H; cbn; [lra|]. specialize (IH (fun i L => H i (Nat.lt_lt_succ_r _ _ L))). specialize (H n ltac:(lia)). lra. Qed.
Lemma tt_le n f g : (forall i, (i < n)%nat -> f i <= g i) -> total_to n f <= total_to n g.
Proof. induction n as [|n IH]; intros H; cbn; [lra|]. specialize (IH (fun i L => H i (Nat.lt_lt_succ_r _ _ L))). specialize (H n ltac:(lia)). lra. Qed.
Lemma tt_pos n f i : (forall i, (i < n)%nat -> 0 <= f i) -> (i < n)%nat -> 0 < f i -> 0 < total_to n f.
Proof.
  induction n as [|n IH]; intros H L P; [lia|]. cbn. destruct (Nat.eq_dec i n) as [->|E].
  - assert (0 <= total_to n f) by (apply tt_nonneg; intros; apply H; lia). lra.
  - assert (0 < total_to n f) by (apply IH; [intros; apply H; lia|lia|exact P]). specialize (H n ltac:(lia)). lra.
Qed.

(** ** Means and deviations *)
Lemma colmean_spec n f j : (0 < n)%nat -> mean_of n (fun i => f i j) (colmean n f j).
Proof. intros L. unfold mean_of, colmean. rewrite sum_total. field. apply not_0_INR. lia. Qed.
Lemma M_mean s j : (0 < npts s)%nat -> total_to (npts s) (fun i => Mmat s i j) = 0.
Proof. intros L. unfold Mmat. rewrite tt_minus, tt_const. pose proof (colmean_spec (npts s) (Amat s) j L) as H. unfold mean_of in H. lra. Qed.
Lemma M_colmean s j : (0 < npts s)%nat -> colmean (npts s) (Mmat s) j = 0.
Proof. intros L. unfold colmean. rewrite sum_total, M_mean by exact L. unfold Rdiv. ring. Qed.
Definition V2 (s : pca) (j : nat) : R := total_to (npts s) (fun i => Mmat s i j * Mmat s i j) / INR (npts s).
Lemma M_std s j : (0 < npts s)%nat -> colstd (npts s) (Mmat s) j = sqrt (V2 s j).
Proof. intros L. unfold colstd, V2. rewrite M_colmean by exact L. rewrite sum_total. do 2 f_equal. apply tt_ext. intros. ring. Qed.
Lemma V2_nonneg s j : (0 < npts s)%nat -> 0 <= V2 s j.
Proof. intros L. unfold V2. apply lt_INR in L. cbn [INR] in L. assert (0 < / INR (npts s)) by now apply Rinv_0_lt_compat. assert (0 <= total_to (npts s) (fun i => Mmat s i j * Mmat s i j)) by (apply tt_nonneg; intros; nra). unfold Rdiv. nra. Qed.
Lemma V2_pos s j : (0 < npts s)%nat -> varied (dat s) (dim s) -> (j < dim s)%nat -> 0 < V2 s j.
Proof.
  intros L H J. destruct (H j J) as (i & k & I' & K & E). unfold V2. apply Rdiv_lt_0_compat; [|now apply lt_0_INR].
  destruct (Req_dec (Mmat s i j) 0) as [Z|Z].
  - apply tt_pos with k; [intros; nra|exact K|]. assert (Mmat s k j <> 0) by (unfold Mmat, Amat in *; unfold entry in E; lra). nra.
  - apply tt_pos with i; [intros; nra|exact I'|nra].
Qed.
Lemma std_pos s j : (0 < npts s)%nat -> varied (dat s) (dim s) -> (j < dim s)%nat -> 0 < colstd (npts s) (Mmat s) j.
Proof. intros L H J. rewrite M_std by exact L. apply sqrt_lt_R0. now apply V2_pos. Qed.
Lemma N_mean s j : (0 < npts s)%nat -> total_to (npts s) (fun i => Nmat s i j) = 0.
Proof. intros L. unfold Nmat. unfold Rdiv. rewrite (tt_ext _ _ (fun i => / colstd (npts s) (Mmat s) j * Mmat s i j)) by (intros; ring). rewrite tt_lin, M_mean by exact L. ring. Qed.
Lemma N_colmean s j : (0 < npts s)%nat -> colmean (npts s) (Nmat s) j = 0.
Proof. intros L. unfold colmean. rewrite sum_total, N_mean by exact L. unfold Rdiv. ring. Qed.
Lemma N_square s j : (0 < npts s)%nat -> varied (dat s) (dim s) -> (j < dim s)%nat -> total_to (npts s) (fun i => Nmat s i j * Nmat s i j) = INR (npts s).
Proof.
  intros L H J. pose proof (std_pos s j L H J) as P. unfold Nmat. rewrite (tt_ext _ _ (fun i => / (colstd (npts s) (Mmat s) j * colstd (npts s) (Mmat s) j) * (Mmat s i j * Mmat s i j))) by (intros; field; lra).
  rewrite tt_lin. rewrite M_std in * by exact L. rewrite sqrt_sqrt by (now apply V2_nonneg). pose proof (V2_pos s j L H J) as Q. unfold V2 in *. assert (INR (npts s) <> 0) by (apply not_0_INR; lia).
  assert (total_to (npts s) (fun i => Mmat s i j * Mmat s i j) <> 0) by (intros E; rewrite E in Q; unfold Rdiv in Q; lra). field. auto.
Qed.
Lemma cov_eq s j k : (0 < npts s)%nat -> getCovarianceMatrix s j k = total_to (npts s) (fun i => Nmat s i j * Nmat s i k) / (INR (npts s) - 1).
Proof. intros L. unfold getCovarianceMatrix, cov. rewrite !N_colmean by exact L. rewrite sum_total. f_equal. apply tt_ext. intros. ring. Qed.
Lemma n1 s : (2 <= npts s)%nat -> 1 <= INR (npts s) - 1 /\ INR (npts s) <> 0.
Proof. intros L. apply le_INR in L. cbn [INR] in L. split; lra. Qed.

(** ** C96: the covariance matrix *)
Theorem C96_covariance : forall s, (2 <= List.length (dat s))%nat -> varied (dat s) (dim s) ->
  let C := getCovarianceMatrix s in let n := INR (List.length (dat s)) in
  (forall j k, C j k = C k j) /\ (forall j, (j < dim s)%nat -> C j j = n / (n - 1)) /\
  (forall j k, (j < dim s)%nat -> (k < dim s)%nat -> Rabs (C j k) <= n / (n - 1)) /\
  (forall x, 0 <= total_to (dim s) (fun j => total_to (dim s) (fun k => x j * C j k * x k))).
Proof.
  intros s L H C n. fold (npts s) in L, n. destruct (n1 s L) as [N1 N0]. assert (L' : (0 < npts s)%nat) by lia. unfold C. clear C. split; [|split; [|split]].
  - intros j k. rewrite !cov_eq by exact L'. f_equal. apply tt_ext. intros. ring.
  - intros j J. rewrite cov_eq by exact L'. now rewrite N_square.
  - intros j k J K. rewrite cov_eq by exact L'. pose proof (N_square s j L' H J) as Sj. pose proof (N_square s k L' H K) as Sk.
    assert (P : 0 <= total_to (npts s) (fun i => (Nmat s i j - Nmat s i k) * (Nmat s i j - Nmat s i k))) by (apply tt_nonneg; intros; apply Rle_0_sqr).
    assert (Q : 0 <= total_to (npts s) (fun i => (Nmat s i j + Nmat s i k) * (Nmat s i j + Nmat s i k))) by (apply tt_nonneg; intros; apply Rle_0_sqr).
    rewrite (tt_ext _ _ (fun i => (Nmat s i j * Nmat s i j + Nmat s i k * Nmat s i k) - 2 * (Nmat s i j * Nmat s i k))) in P by (intros; ring).
    rewrite (tt_ext _ _ (fun i => (Nmat s i j * Nmat s i j + Nmat s i k * Nmat s i k) + 2 * (Nmat s i j * Nmat s i k))) in Q by (intros; ring).
    rewrite tt_minus, tt_plus, tt_lin, Sj, Sk in P. rewrite !tt_plus, tt_lin, Sj, Sk in Q. unfold n. set (t := total_to (npts s) (fun i => Nmat s i j * Nmat s i k)) in *.
    assert (T : Rabs t <= INR (npts s)) by (apply Rabs_le; lra). unfold Rdiv. rewrite Rabs_mult. rewrite (Rabs_right (/ _)) by (left; apply Rinv_0_lt_compat; lra). apply Rmult_le_compat_r; [left; apply Rinv_0_lt_compat; lra|exact T].
  - intros x. assert (E : total_to (dim s) (fun j => total_to (dim s) (fun k => x j * getCovarianceMatrix s j k * x k)) = total_to (npts s) (fun i => total_to (dim s) (fun j => x j * Nmat s i j) * total_to (dim s) (fun j => x j * Nmat s i j)) / (INR (npts s) - 1)).
    { rewrite (tt_ext _ _ (fun j => / (INR (npts s) - 1) * total_to (npts s) (fun i => x j * Nmat s i j * total_to (dim s) (fun k => x k * Nmat s i k)))).
      2: { intros j _. rewrite (tt_ext _ _ (fun k => / (INR (npts s) - 1) * total_to (npts s) (fun i => x j * Nmat s i j * (x k * Nmat s i k)))).
        2: { intros k _. rewrite cov_eq by exact L'. rewrite (tt_ext (npts s) (fun i => x j * Nmat s i j * (x k * Nmat s i k)) (fun i => x j * x k * (Nmat s i j * Nmat s i k))) by (intros; ring). rewrite tt_lin. unfold Rdiv. ring. }
        rewrite tt_lin, tt_swap. f_equal. apply tt_ext. intros i _. now rewrite tt_lin. }
      rewrite tt_lin, tt_swap. unfold Rdiv. rewrite Rmult_comm. f_equal. apply tt_ext. intros i _. rewrite (tt_ext _ _ (fun j => total_to (dim s) (fun k => x k * Nmat s i k) * (x j * Nmat s i j))) by (intros; ring). rewrite tt_lin. ring. }
    rewrite E. apply Rmult_le_pos; [apply tt_nonneg; intros; apply Rle_0_sqr|left; apply Rinv_0_lt_compat; lra].
Qed.

(** units and zero points do not matter *)
Theorem C96_units : forall s s' a b, dim s' = dim s -> List.length (dat s') = List.length (dat s) -> (0 < List.length (dat s))%nat -> varied (dat s) (dim s) ->
  (forall j, (j < dim s)%nat -> 0 < a j) -> (forall i j, (i < List.length (dat s))%nat -> (j < dim s)%nat -> entry (dat s') i j = a j * entry (dat s) i j + b j) ->
  (forall i j, (i < List.length (dat s))%nat -> (j < dim s)%nat -> Nmat s' i j = Nmat s i j) /\
  (forall j k, (j < dim s)%nat -> (k < dim s)%nat -> getCovarianceMatrix s' j k = getCovarianceMatrix s j k).
Proof.
  intros s s' a b D L L0 H A E. fold (npts s) (npts s') in *. assert (M : forall i j, (i < npts s)%nat -> (j < dim s)%nat -> Mmat s' i j = a j * Mmat s i j).
  { intros i j I' J. unfold Mmat. change (Amat s' i j) with (entry (dat s') i j). rewrite (E i j I' J). change (entry (dat s) i j) with (Amat s i j).
    unfold colmean. rewrite !sum_total, L. rewrite (tt_ext _ (fun i => Amat s' i j) (fun i => a j * Amat s i j + b j)) by (intros k K; now apply E). rewrite tt_plus, tt_lin, tt_const. field. apply not_0_INR. lia. }
  assert (N : forall i j, (i < npts s)%nat -> (j < dim s)%nat -> Nmat s' i j = Nmat s i j).
  { intros i j I' J. unfold Nmat. rewrite (M i j I' J). rewrite !M_std by lia. pose proof (V2_pos s j L0 H J) as P.
    assert (V : V2 s' j = a j * a j * V2 s j). { unfold V2. rewrite L. rewrite (tt_ext _ _ (fun i => a j * a j * (Mmat s i j * Mmat s i j))) by (intros k K; rewrite M by auto; ring). rewrite tt_lin. unfold Rdiv. ring. }
    rewrite V. specialize (A j J). rewrite sqrt_mult by nra. rewrite sqrt_square by lra. assert (sqrt (V2 s j) <> 0) by (apply Rgt_not_eq, sqrt_lt_R0, P). field. split; [assumption|lra]. }
  split; [exact N|]. intros j k J K. rewrite !cov_eq by lia. rewrite L. f_equal. apply tt_ext. intros i I'. now rewrite !N.
Qed.

(** ** Histories: an object made from [rows], then asked for its eigensystem, clipped and reset any number of times *)
Inductive history (eig : eigfun) (p : nat) (rows : list (list R)) : pca -> Prop :=
| h_init names s : pca_init p rows names = Ok s -> history eig p rows s
| h_query s : history eig p rows s -> history eig p rows (fst (getEigensystem eig s))
| h_clip s sigs s' k : history eig p rows s -> sigclip s sigs = Ok (s', k) -> history eig p rows s'
| h_reset s : history eig p rows s -> history eig p rows (reset s).
(** some of the elements, in their order *)
Inductive part {A} : list A -> list A -> Prop :=
| part_nil : part [] []
| part_skip a l k : part l k -> part l (a :: k)
| part_take a l k : part l k -> part (a :: l) (a :: k).
Lemma part_refl {A} (l : list A) : part l l. Proof. induction l; [constructor|now apply part_take]. Qed.
Lemma part_trans {A} (l k m : list A) : part l k -> part k m -> part l m.
Proof. intros H G. revert l H. induction G; intros l' H; auto; [apply part_skip; auto|]. inversion H; subst; [apply part_skip|apply part_take]; auto. Qed.
Lemma part_filter {A} (d : A) m l b : part (map (fun i => nth (i - b) l d) (filter m (seq b (List.length l)))) l.
Proof.
  revert b. induction l as [|a l IH]; intros b; [constructor|]. cbn [List.length seq filter].
  assert (E : map (fun i => nth (i - b) (a :: l) d) (filter m (seq (S b) (List.length l))) = map (fun i => nth (i - S b) l d) (filter m (seq (S b) (List.length l)))).
  { apply map_ext_in. intros i I'. apply filter_In in I'. destruct I' as [I' _]. apply in_seq in I'. replace (i - b)%nat with (S (i - S b)) by lia. reflexivity. }
  destruct (m b); [cbn [map]; rewrite Nat.sub_diag, E; change (nth 0 (a :: l) d) with a; apply part_take, IH|]. rewrite E. apply part_skip, IH.
Qed.
Lemma clip_shape s sigs s' k : sigclip s sigs = Ok (s', k) -> exists m : nat -> bool, s' = Pca (orig s) (map (fun i => nth i (dat s) []) (filter m (seq 0 (npts s)))) (dim s) None /\ k = (npts s - List.length (filter m (seq 0 (npts s))))%nat.
Proof.
  unfold sigclip. intros H. repeat match type of H with (if ?b then _ else _) = _ => destruct b end; try discriminate; inversion H; subst; eexists; (split; [reflexivity|]); now rewrite map_length.
Qed.
Lemma history_shape eig p rows s : history eig p rows s -> dim s = p /\ orig s = rows /\ part (dat s) rows /\ (cache s = None \/ cache s = Some (ordered (eig (dim s) (getCovarianceMatrix s)))).
Proof.
  intros H. induction H as [names s E|s H IH|s sigs s' k H IH E|s H IH].
  - unfold pca_init in E. assert (s = Pca rows rows p None) as -> by (destruct names as [k|]; [destruct (Nat.eqb k p); congruence|congruence]). cbn. repeat split; auto. apply part_refl.
  - destruct IH as (A & B & C & D). cbn [getEigensystem fst dim orig dat cache]. repeat split; auto. right. unfold system. destruct D as [D|D]; rewrite D; reflexivity.
  - destruct IH as (A & B & C & D). destruct (clip_shape s sigs s' k E) as (m & -> & _). cbn [dim orig dat cache]. repeat split; auto. apply part_trans with (dat s); [|exact C].
    pose proof (part_filter [] m (dat s) 0) as P. rewrite (map_ext _ (fun i => nth i (dat s) [])) in P by (intros i; now rewrite Nat.sub_0_r). exact P.
  - destruct IH as (A & B & C & D). cbn. rewrite B. repeat split; auto. apply part_refl.
Qed.
Lemma history_system eig p rows s : history eig p rows s -> system eig s = ordered (eig (dim s) (getCovarianceMatrix s)).
Proof. intros H. destruct (history_shape eig p rows s H) as (_ & _ & _ & [D|D]); unfold system; rewrite D; reflexivity. Qed.
(** the results never belong to other data than the present; these are some of the first; reset brings all back *)
Theorem C96_history : forall eig p rows s, history eig p rows s ->
  part (dat s) rows /\ system eig s = system eig (Pca (dat s) (dat s) p None) /\ getCovarianceMatrix s = getCovarianceMatrix (Pca (dat s) (dat s) p None) /\
  dat (reset s) = rows /\ system eig (reset s) = system eig (Pca rows rows p None).
Proof.
  intros eig p rows s H. destruct (history_shape eig p rows s H) as (A & B & C & _). split; [exact C|]. split; [|split; [reflexivity|split; [exact B|]]].
  - rewrite (history_system eig p rows s H), A. reflexivity.
  - rewrite (history_system eig p rows (reset s)) by now constructor. unfold system, reset. cbn [cache dim]. rewrite A. unfold getCovarianceMatrix, Nmat, Mmat, npts, Amat. cbn [dat]. now rewrite B.
Qed.

(** ** Sorting the eigenvalues *)
Lemma ins_perm v i l : Permutation (i :: l) (ins v i l).
Proof. induction l as [|j l IH]; [reflexivity|]. cbn. destruct (Rle_dec _ _); [reflexivity|]. rewrite perm_swap. now constructor. Qed.
Lemma argsort_perm v : Permutation (seq 0 (List.length v)) (argsort_rev v).
Proof. unfold argsort_rev. induction (seq 0 (List.length v)) as [|i l IH]; [constructor|]. cbn. rewrite <- ins_perm. now constructor. Qed.
Lemma ins_sorted v i l : StronglySorted (fun i j => nth j v 0 <= nth i v 0) l -> StronglySorted (fun i j => nth j v 0 <= nth i v 0) (ins v i l).
Proof.
  intros H. induction H as [|j l S IH F]; [repeat constructor|]. cbn. destruct (Rle_dec _ _) as [E|E].
  - constructor; [constructor; auto|]. constructor; [exact E|]. rewrite List.Forall_forall in *. intros k K. specialize (F k K). cbv beta in F. lra.
  - constructor; [exact IH|]. apply List.Forall_forall. intros k K. apply (Permutation_in _ (Permutation_sym (ins_perm v i l))) in K. destruct K as [<-|K]; [lra|]. rewrite List.Forall_forall in F. now apply F.
Qed.
Lemma argsort_sorted v : StronglySorted (fun i j => nth j v 0 <= nth i v 0) (argsort_rev v).
Proof. unfold argsort_rev. induction (seq 0 (List.length v)) as [|i l IH]; [constructor|]. cbn. now apply ins_sorted. Qed.
Lemma tt_rsum n f : total_to n f = rsum (map f (seq 0 n)). Proof. symmetry. apply sum_total. Qed.
Lemma tt_perm v f : total_to (List.length v) (fun c => f (nth c (argsort_rev v) 0%nat)) = total_to (List.length v) f.
Proof.
  pose proof (argsort_perm v) as P. rewrite !tt_rsum. rewrite <- (map_map (fun c => nth c (argsort_rev v) 0%nat) f).
  assert (E : map (fun c => nth c (argsort_rev v) 0%nat) (seq 0 (List.length v)) = argsort_rev v).
  { replace (List.length v) with (List.length (argsort_rev v)) by (rewrite <- (Permutation_length P); apply seq_length). generalize (argsort_rev v). intros l. induction l as [|a l IH]; [reflexivity|]. cbn [List.length seq map nth]. rewrite <- seq_shift, map_map. f_equal. exact IH. }
  rewrite E. apply rsum_perm, Permutation_map. symmetry. exact P.
Qed.
Lemma argsort_lt v c : (c < List.length v)%nat -> (nth c (argsort_rev v) 0 < List.length v)%nat.
Proof. intros L. pose proof (argsort_perm v) as P. assert (I' : In (nth c (argsort_rev v) 0%nat) (argsort_rev v)) by (apply nth_In; rewrite <- (Permutation_length P), seq_length; exact L). apply (Permutation_in _ (Permutation_sym P)) in I'. apply in_seq in I'. lia. Qed.
Lemma argsort_length v : List.length (argsort_rev v) = List.length v.
Proof. pose proof (argsort_perm v) as P. now rewrite <- (Permutation_length P), seq_length. Qed.
Lemma argsort_inj v c d : (c < List.length v)%nat -> (d < List.length v)%nat -> nth c (argsort_rev v) 0%nat = nth d (argsort_rev v) 0%nat -> c = d.
Proof. intros C D E. assert (ND : NoDup (argsort_rev v)) by (apply (Permutation_NoDup (argsort_perm v)), seq_NoDup). apply (proj1 (NoDup_nth _ 0%nat) ND); try rewrite argsort_length; auto. Qed.
Lemma ordered_nth vals V c : (c < List.length vals)%nat -> nth c (fst (ordered (vals, V))) 0 = nth (nth c (argsort_rev vals) 0%nat) vals 0.
Proof.
  intros L. cbn [ordered fst]. rewrite nth_indep with (d' := (fun i => nth i vals 0) 0%nat) by (rewrite map_length, argsort_length; exact L). now rewrite (map_nth (fun i => nth i vals 0)).
Qed.
Lemma ordered_eigen p C vals V : eigensystem p C vals V -> eigensystem p C (fst (ordered (vals, V))) (snd (ordered (vals, V))).
Proof.
  intros [L E]. split; [cbn [ordered fst]; now rewrite map_length, argsort_length|]. intros j c J Hc. rewrite ordered_nth by lia. cbn [ordered snd fst]. apply E; [exact J|]. rewrite <- L. apply argsort_lt. lia.
Qed.
Lemma ordered_orth p vals V : List.length vals = p -> orthogonal p V -> orthogonal p (snd (ordered (vals, V))).
Proof.
  intros L [A B]. cbn [ordered snd fst]. split.
  - intros c d Hc Hd. subst p. rewrite A by (apply argsort_lt; auto). unfold unit_. destruct (Nat.eqb_spec c d) as [->|N]; [now rewrite Nat.eqb_refl|]. destruct (Nat.eqb_spec (nth c (argsort_rev vals) 0%nat) (nth d (argsort_rev vals) 0%nat)) as [E|E]; [|reflexivity]. elim N. now apply (argsort_inj vals).
  - intros j k J K. subst p. rewrite (tt_perm vals (fun c => V j c * V k c)). now apply B.
Qed.
Lemma nth_sorted_desc v c d : (c <= d < List.length v)%nat -> nth (nth d (argsort_rev v) 0%nat) v 0 <= nth (nth c (argsort_rev v) 0%nat) v 0.
Proof.
  pose proof (argsort_sorted v) as S. rewrite <- (argsort_length v). generalize dependent (argsort_rev v). intros l S. revert c d. induction S as [|i l S IH F]; intros c d H; [cbn in H; lia|].
  cbn [List.length] in H. destruct d as [|d]; [assert (c = 0)%nat by lia; subst; lra|]. destruct c as [|c]; cbn [nth]; [|apply IH; lia]. rewrite List.Forall_forall in F. apply (F (nth d l 0%nat)). apply nth_In. lia.
Qed.

(** ** C96: the principal components *)
(** what is assumed of numpy.linalg.eig for the covariance matrix of the data: an orthogonal matrix of eigenvectors *)
Definition eig_ok (eig : eigfun) (s : pca) : Prop :=
  eigensystem (dim s) (getCovarianceMatrix s) (fst (eig (dim s) (getCovarianceMatrix s))) (snd (eig (dim s) (getCovarianceMatrix s))) /\ orthogonal (dim s) (snd (eig (dim s) (getCovarianceMatrix s))).
Lemma system_ok eig p rows s : history eig p rows s -> eig_ok eig s -> eigensystem (dim s) (getCovarianceMatrix s) (fst (system eig s)) (snd (system eig s)) /\ orthogonal (dim s) (snd (system eig s)).
Proof.
  intros H [A B]. rewrite (history_system eig p rows s H). destruct (eig (dim s) (getCovarianceMatrix s)) as [vals V]. cbn [fst snd] in *. split; [now apply ordered_eigen|]. apply ordered_orth; [apply A|exact B].
Qed.
Lemma sum_list v : rsum v = total_to (List.length v) (fun i => nth i v 0).
Proof.
  rewrite tt_rsum. f_equal. induction v as [|x v IH]; [reflexivity|]. cbn [List.length seq map nth]. rewrite <- seq_shift, map_map. f_equal. exact IH.
Qed.
(** scores of the data on component c *)
Definition scores (s : pca) (V : matrix) (i c : nat) : R := total_to (dim s) (fun j => V j c * Nmat s i j).
Lemma scores_cov s V c d : (2 <= npts s)%nat -> total_to (npts s) (fun i => scores s V i c * scores s V i d) = (INR (npts s) - 1) * total_to (dim s) (fun j => V j c * total_to (dim s) (fun k => getCovarianceMatrix s j k * V k d)).
Proof.
  intros L. destruct (n1 s L) as [N1 _]. unfold scores.
  rewrite (tt_ext (dim s) _ (fun j => / (INR (npts s) - 1) * total_to (npts s) (fun i => V j c * Nmat s i j * total_to (dim s) (fun k => V k d * Nmat s i k)))).
  2: { intros j _. rewrite (tt_ext _ _ (fun k => / (INR (npts s) - 1) * total_to (npts s) (fun i => Nmat s i j * (V k d * Nmat s i k)))).
    2: { intros k _. rewrite cov_eq by lia. rewrite (tt_ext (npts s) (fun i => Nmat s i j * (V k d * Nmat s i k)) (fun i => V k d * (Nmat s i j * Nmat s i k))) by (intros; ring). rewrite tt_lin. unfold Rdiv. ring. }
    rewrite tt_lin, tt_swap. rewrite (tt_ext (npts s) (fun i => V j c * Nmat s i j * total_to (dim s) (fun k => V k d * Nmat s i k)) (fun i => V j c * (total_to (dim s) (fun k => Nmat s i j * (V k d * Nmat s i k))))) by (intros; rewrite tt_lin; ring). rewrite tt_lin. ring. }
  rewrite tt_lin, tt_swap, <- Rmult_assoc, Rinv_r, Rmult_1_l by lra. apply tt_ext. intros i _. symmetry. rewrite (tt_ext _ _ (fun j => total_to (dim s) (fun k => V k d * Nmat s i k) * (V j c * Nmat s i j))) by (intros; ring). rewrite tt_lin. ring.
Qed.
Lemma scores_eigen s V vals c d : (2 <= npts s)%nat -> eigensystem (dim s) (getCovarianceMatrix s) vals V -> orthogonal (dim s) V -> (c < dim s)%nat -> (d < dim s)%nat ->
  total_to (npts s) (fun i => scores s V i c * scores s V i d) = (INR (npts s) - 1) * (nth d vals 0 * unit_ c d).
Proof.
  intros L [_ E] [O _] Hc Hd. rewrite scores_cov by exact L. f_equal. rewrite (tt_ext _ _ (fun j => nth d vals 0 * (V j c * V j d))) by (intros j J; rewrite E by auto; ring). rewrite tt_lin, O by auto. reflexivity.
Qed.
(** the eigenvalues come in descending order, none negative, and add up to the total variance; the energies are shares of one *)
Theorem C96_eigenvalues : forall eig p rows s, history eig p rows s -> eig_ok eig s -> (2 <= List.length (dat s))%nat -> (0 < p)%nat -> varied (dat s) p ->
  let vals := fst (system eig s) in let n := INR (List.length (dat s)) in
  List.length vals = p /\ (forall c d, (c <= d < p)%nat -> 0 <= nth d vals 0 <= nth c vals 0) /\ fold_right Rplus 0 vals = INR p * n / (n - 1) /\
  fold_right Rplus 0 (getEnergies eig s) = 1 /\ (forall c, (c < p)%nat -> 0 <= nth c (getEnergies eig s) 0 <= 1).
Proof.
  intros eig p rows s H K L Hp Vr vals n. destruct (history_shape eig p rows s H) as (Dp & _ & _ & _). destruct (system_ok eig p rows s H K) as [ES OR]. fold vals in ES. fold (npts s) in L, n. set (V := snd (system eig s)) in *.
  rewrite <- Dp in *. destruct (n1 s L) as [N1 N0]. assert (Len : List.length vals = dim s) by apply ES.
  assert (NN : forall c, (c < dim s)%nat -> 0 <= nth c vals 0).
  { intros c Hc. pose proof (scores_eigen s V vals c c L ES OR Hc Hc) as Q. unfold unit_ in Q. rewrite Nat.eqb_refl in Q. assert (0 <= total_to (npts s) (fun i => scores s V i c * scores s V i c)) by (apply tt_nonneg; intros; apply Rle_0_sqr). rewrite Q in H0. nra. }
  assert (DS : forall c d, (c <= d < dim s)%nat -> nth d vals 0 <= nth c vals 0).
  { intros c d Hd. unfold vals in *. rewrite (history_system eig _ rows s H) in *. destruct (eig (dim s) (getCovarianceMatrix s)) as [v0 V0] eqn:Ee. assert (L0 : List.length v0 = dim s) by (cbn [ordered fst] in Len; rewrite map_length, argsort_length in Len; exact Len). rewrite !ordered_nth by lia. apply nth_sorted_desc. lia. }
  assert (SM : fold_right Rplus 0 vals = INR (dim s) * n / (n - 1)).
  { fold (rsum vals). rewrite sum_list, Len. rewrite (tt_ext _ _ (fun c => / (INR (npts s) - 1) * total_to (npts s) (fun i => scores s V i c * scores s V i c))).
    2: { intros c Hc. rewrite (scores_eigen s V vals) by auto. unfold unit_. rewrite Nat.eqb_refl. field. lra. }
    rewrite tt_lin, tt_swap.
    rewrite (tt_ext (npts s) _ (fun i => total_to (dim s) (fun j => Nmat s i j * Nmat s i j))).
    2: { intros i _. unfold scores. rewrite (tt_ext _ _ (fun c => total_to (dim s) (fun j => Nmat s i j * (V j c * total_to (dim s) (fun k => V k c * Nmat s i k))))).
      2: { intros c _. rewrite (tt_ext (dim s) (fun j => Nmat s i j * (V j c * total_to (dim s) (fun k => V k c * Nmat s i k))) (fun j => total_to (dim s) (fun k => V k c * Nmat s i k) * (V j c * Nmat s i j))) by (intros; ring). rewrite tt_lin. reflexivity. }
      rewrite tt_swap. apply tt_ext. intros j J. rewrite tt_lin. f_equal.
      rewrite (tt_ext _ _ (fun c => total_to (dim s) (fun k => V j c * V k c * Nmat s i k))) by (intros; rewrite <- tt_lin; apply tt_ext; intros; ring). rewrite tt_swap.
      rewrite (tt_ext _ _ (fun k => unit_ j k * Nmat s i k)). 2: { intros k Kk. rewrite <- (proj2 OR j k J Kk). rewrite (tt_ext _ _ (fun c => Nmat s i k * (V j c * V k c))) by (intros; ring). rewrite tt_lin. ring. }
      now apply tt_unit'. }
    rewrite tt_swap. rewrite (tt_ext _ _ (fun _ => n)) by (intros j J; apply N_square; auto; lia). rewrite tt_const. unfold Rdiv, n. ring. }
  assert (SP : 0 < rsum vals). { fold (rsum vals) in SM. rewrite SM. apply Rdiv_lt_0_compat; [|unfold n; lra]. apply Rmult_lt_0_compat; [now apply lt_0_INR|unfold n; lra]. }
  split; [exact Len|]. split; [intros c d Hd; split; [apply NN; lia|now apply DS]|]. split; [exact SM|].
  assert (EE : getEnergies eig s = map (fun x => / rsum vals * x) vals) by (unfold getEnergies; fold vals; apply map_ext; intros; unfold Rdiv; ring). rewrite EE. split.
  - fold (rsum (map (fun x => / rsum vals * x) vals)). rewrite rsum_scale. field. lra.
  - intros c Hc. rewrite nth_map0 by lia. assert (I0 : 0 < / rsum vals) by now apply Rinv_0_lt_compat. split; [apply Rmult_le_pos; [lra|now apply NN]|].
    assert (B : nth c vals 0 <= rsum vals). { clear - NN Len Hc. rewrite <- Len in *. clear Len. revert c Hc. induction vals as [|x l IH]; intros c Hc; [cbn in Hc; lia|]. assert (X0 := NN 0%nat ltac:(cbn; lia)). cbn in X0. assert (NN' : forall c, (c < List.length l)%nat -> 0 <= nth c l 0) by (intros d Hd; apply (NN (S d)); cbn; lia).
      cbn [rsum fold_right]. fold (rsum l). destruct c as [|c]; cbn [nth].
      - assert (0 <= rsum l) by (rewrite sum_list; apply tt_nonneg; exact NN'). lra.
      - specialize (IH NN' c ltac:(cbn in Hc; lia)). lra. }
    apply Rmult_le_reg_l with (rsum vals); [exact SP|]. rewrite <- Rmult_assoc, Rinv_r by lra. lra.
Qed.
