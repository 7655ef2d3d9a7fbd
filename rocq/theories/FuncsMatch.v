(** * FuncsMatch: C29 (match_coords), C37 (Earth rotation angle and sidereal time) *)
From Coq Require Import Reals ZArith List Bool Arith Lia Lra Permutation Sorted.
From Verif Require Import PyBase RealTrig AlgModel FuncsModel.
Import ListNotations.
Open Scope R_scope.

(** ** C29 *)
(** the i-th pair of the first set and the j-th of the second are within eps *)
Definition close (p1 p2 : list (R * R)) (eps : R) (i j : nat) : Prop :=
  exists a b c d, nth_error p1 i = Some (a, b) /\ nth_error p2 j = Some (c, d) /\ sqrt ((a - c)^2 + (b - d)^2) <= eps.
Definition closeb (p1 p2 : list (R * R)) (eps : R) (i j : nat) : bool := nth j (nth i (matches p1 p2 eps) []) false.
Lemma closeb_spec p1 p2 eps i j : closeb p1 p2 eps i j = true <-> close p1 p2 eps i j.
Proof.
  unfold closeb, close, matches. split.
  - intros H. destruct (nth_error p1 i) as [(a, b)|] eqn:Ei.
    2: { exfalso. apply nth_error_None in Ei. rewrite (nth_overflow _ []) in H by (rewrite map_length; lia). destruct j; discriminate. }
    rewrite (nth_error_nth' _ [] (n := i)) in * || idtac.
    assert (nth i (map (fun p => map (fun q => Rleb (dist2 p q) eps) p2) p1) [] = map (fun q => Rleb (dist2 (a, b) q) eps) p2) as E.
    { apply nth_error_nth. rewrite nth_error_map, Ei. reflexivity. }
    rewrite E in H. destruct (nth_error p2 j) as [(c, d)|] eqn:Ej.
    2: { exfalso. apply nth_error_None in Ej. rewrite nth_overflow in H by (rewrite map_length; lia). discriminate. }
    exists a, b, c, d. split; [auto|]. split; [auto|]. assert (nth j (map (fun q => Rleb (dist2 (a, b) q) eps) p2) false = Rleb (dist2 (a, b) (c, d)) eps) as E2.
    { apply nth_error_nth. rewrite nth_error_map, Ej. reflexivity. }
    rewrite E2 in H. unfold Rleb, dist2, hypot in H. cbn [fst snd] in H. destruct (Rle_dec _ _) as [Q|]; [|discriminate].
    replace ((a - c) ^ 2 + (b - d) ^ 2) with ((a - c) * (a - c) + (b - d) * (b - d)) by ring. exact Q.
  - intros (a & b & c & d & Ei & Ej & H).
    assert (nth i (map (fun p => map (fun q => Rleb (dist2 p q) eps) p2) p1) [] = map (fun q => Rleb (dist2 (a, b) q) eps) p2) as ->.
    { apply nth_error_nth. rewrite nth_error_map, Ei. reflexivity. }
    assert (nth j (map (fun q => Rleb (dist2 (a, b) q) eps) p2) false = Rleb (dist2 (a, b) (c, d)) eps) as ->.
    { apply nth_error_nth. rewrite nth_error_map, Ej. reflexivity. }
    unfold Rleb, dist2, hypot. cbn [fst snd]. destruct (Rle_dec _ _) as [Q|Q]; [reflexivity|]. exfalso. apply Q.
    replace ((a - c) * (a - c) + (b - d) * (b - d)) with ((a - c) ^ 2 + (b - d) ^ 2) by ring. exact H.
Qed.
Lemma matches_nth p1 p2 eps i : (i < length p1)%nat -> nth_error (matches p1 p2 eps) i = Some (map (closeb p1 p2 eps i) (seq 0 (length p2))).
Proof.
  intros Hi. unfold matches. rewrite nth_error_map. destruct (nth_error p1 i) as [p|] eqn:E; [|apply nth_error_None in E; lia]. cbn [option_map]. f_equal.
  assert (nth i (matches p1 p2 eps) [] = map (fun q => Rleb (dist2 p q) eps) p2) as En by (apply nth_error_nth; unfold matches; rewrite nth_error_map, E; reflexivity).
  unfold closeb. rewrite En. clear. induction p2 as [|q l IH] using rev_ind; [reflexivity|]. rewrite app_length, map_app. cbn [length map]. rewrite Nat.add_1_r, seq_S, map_app. cbn [map plus]. f_equal.
  - rewrite IH at 1. apply map_ext_in. intros j Hj. apply in_seq in Hj. rewrite app_nth1 by (rewrite map_length; lia). reflexivity.
  - rewrite app_nth2 by (rewrite map_length; lia). rewrite map_length, Nat.sub_diag. reflexivity.
Qed.
Lemma matches_length p1 p2 eps : length (matches p1 p2 eps) = length p1. Proof. apply map_length. Qed.
Lemma columns_nth p1 p2 eps j : (j < length p2)%nat -> nth_error (columns (length p2) (matches p1 p2 eps)) j = Some (map (fun i => closeb p1 p2 eps i j) (seq 0 (length p1))).
Proof.
  intros Hj. unfold columns. rewrite nth_error_map. assert (nth_error (seq 0 (length p2)) j = Some j) as ->.
  { rewrite (nth_error_nth' _ 0%nat) by (rewrite seq_length; lia). now rewrite seq_nth. }
  cbn [option_map]. f_equal. unfold column. rewrite <- (map_id (seq 0 (length p1))) at 1. rewrite map_id. unfold closeb. rewrite <- (matches_length p1 p2 eps). generalize (matches p1 p2 eps). clear.
  induction l as [|r l IH]; [reflexivity|]. cbn [map length seq]. f_equal. rewrite <- seq_shift, map_map. exact IH.
Qed.
Lemma anyb_spec l : anyb l = true <-> In true l.
Proof. unfold anyb. rewrite existsb_exists. split; [intros (b & H & ->); auto|intros H; exists true; auto]. Qed.
Lemma count_pos l : (0 <? count l)%nat = anyb l.
Proof. unfold count, anyb. induction l as [|[|] l IH]; cbn; auto. Qed.
Definition masks_ok p1 p2 eps (m1 m2 : list bool) : Prop := length m1 = length p1 /\ length m2 = length p2 /\
  (forall i, nth_error m1 i = Some true <-> exists j, close p1 p2 eps i j) /\ (forall j, nth_error m2 j = Some true <-> exists i, close p1 p2 eps i j).
Lemma close_bound p1 p2 eps i j : close p1 p2 eps i j -> (i < length p1)%nat /\ (j < length p2)%nat.
Proof. intros (a & b & c & d & E1 & E2 & _). split; apply nth_error_Some; congruence. Qed.
Lemma masks_any p1 p2 eps : masks_ok p1 p2 eps (map anyb (matches p1 p2 eps)) (map anyb (columns (length p2) (matches p1 p2 eps))).
Proof.
  split; [rewrite map_length; apply matches_length|]. split; [unfold columns; rewrite !map_length; apply seq_length|]. split.
  - intros i. rewrite nth_error_map. destruct (le_lt_dec (length p1) i) as [L|L].
    { assert (nth_error (matches p1 p2 eps) i = None) as -> by (apply nth_error_None; rewrite matches_length; lia). split; [discriminate|]. intros (j & H). apply close_bound in H. lia. }
    rewrite matches_nth by auto. cbn [option_map]. split.
    + intros E. injection E as E. apply anyb_spec, in_map_iff in E. destruct E as (j & E & _). apply closeb_spec in E. eauto.
    + intros (j & H). pose proof (close_bound _ _ _ _ _ H). f_equal. apply anyb_spec, in_map_iff. exists j. rewrite closeb_spec. split; [auto|]. apply in_seq. lia.
  - intros j. rewrite nth_error_map. destruct (le_lt_dec (length p2) j) as [L|L].
    { assert (nth_error (columns (length p2) (matches p1 p2 eps)) j = None) as -> by (apply nth_error_None; unfold columns; rewrite map_length, seq_length; lia). split; [discriminate|]. intros (i & H). apply close_bound in H. lia. }
    rewrite columns_nth by auto. cbn [option_map]. split.
    + intros E. injection E as E. apply anyb_spec, in_map_iff in E. destruct E as (i & E & _). apply closeb_spec in E. eauto.
    + intros (i & H). pose proof (close_bound _ _ _ _ _ H). f_equal. apply anyb_spec, in_map_iff. exists i. rewrite closeb_spec. split; [auto|]. apply in_seq. lia.
Qed.
Lemma masks_count p1 p2 eps : map (fun s => (0 <? s)%nat) (map count (matches p1 p2 eps)) = map anyb (matches p1 p2 eps) /\
  map (fun s => (0 <? s)%nat) (map count (columns (length p2) (matches p1 p2 eps))) = map anyb (columns (length p2) (matches p1 p2 eps)).
Proof. split; rewrite map_map; apply map_ext, count_pos. Qed.
(** The masks of modes 'mask' and 'maskwarn' are True exactly for the pairs that have a partner within eps. *)
Theorem C29_masks : forall p1 p2 eps, exists m1 m2, match_coords p1 p2 eps MMask = Ok (RMasks m1 m2) /\ match_coords p1 p2 eps MWarn = Ok (RMasks m1 m2) /\ masks_ok p1 p2 eps m1 m2.
Proof.
  intros p1 p2 eps. exists (map anyb (matches p1 p2 eps)), (map anyb (columns (length p2) (matches p1 p2 eps))). split; [reflexivity|]. split; [|apply masks_any].
  cbn [match_coords]. destruct (masks_count p1 p2 eps) as (-> & ->). reflexivity.
Qed.
Print Assumptions C29_masks.
Lemma count_le1 (l : list bool) : (count l <= 1)%nat <-> forall i j, nth_error l i = Some true -> nth_error l j = Some true -> i = j.
Proof.
  unfold count. induction l as [|b l IH]; cbn; [split; [intros _ [|i] j; discriminate|lia]|]. destruct b; cbn [length].
  - split.
    + intros H. assert (filter (fun b => b) l = []) as E by (destruct (filter (fun b => b) l); [auto|cbn in H; lia]).
      assert (forall i, nth_error l i <> Some true) as N. { intros i Hi. apply nth_error_In in Hi. assert (In true (filter (fun b => b) l)) by (apply filter_In; auto). rewrite E in H0. destruct H0. }
      intros [|i] [|j] Hi Hj; auto; cbn in *; exfalso; [eapply N|eapply N|eapply N]; eauto.
    + intros H. destruct (filter (fun b => b) l) as [|x r] eqn:E; [cbn; lia|]. exfalso. assert (In x (filter (fun b => b) l)) as Hx by (rewrite E; left; auto). apply filter_In in Hx. destruct Hx as (Hx & ->).
      apply In_nth_error in Hx. destruct Hx as (i & Hi). specialize (H 0%nat (S i) eq_refl Hi). discriminate.
  - rewrite IH. split; intros H.
    + intros [|i] [|j] Hi Hj; cbn in *; try discriminate. f_equal. auto.
    + intros i j Hi Hj. specialize (H (S i) (S j) Hi Hj). lia.
Qed.
Lemma nth_map_seq (f : nat -> bool) n i : nth_error (map f (seq 0 n)) i = Some true <-> (i < n)%nat /\ f i = true.
Proof.
  rewrite nth_error_map. destruct (le_lt_dec n i) as [L|L].
  - assert (nth_error (seq 0 n) i = None) as -> by (apply nth_error_None; rewrite seq_length; lia). cbn. split; [discriminate|lia].
  - assert (nth_error (seq 0 n) i = Some i) as -> by (rewrite (nth_error_nth' _ 0%nat) by (rewrite seq_length; lia); now rewrite seq_nth). cbn. split; [intros E; injection E; auto|intros (_ & ->); auto].
Qed.
(** 'maskexcept' returns the same masks, and raises ValueError exactly if some pair has more than one partner. *)
Theorem C29_maskexcept : forall p1 p2 eps,
  let unique := (forall i j j', close p1 p2 eps i j -> close p1 p2 eps i j' -> j = j') /\ (forall i i' j, close p1 p2 eps i j -> close p1 p2 eps i' j -> i = i') in
  (unique -> match_coords p1 p2 eps MExcept = match_coords p1 p2 eps MMask) /\ (~ unique -> match_coords p1 p2 eps MExcept = Raise ValueError).
Proof.
  intros p1 p2 eps unique. cbn [match_coords]. set (m := matches p1 p2 eps). destruct (masks_count p1 p2 eps) as (M1 & M2). fold m in M1, M2. rewrite M1, M2.
  assert (forallb (fun s => s <? 2)%nat (map count m) && forallb (fun s => s <? 2)%nat (map count (columns (length p2) m)) = true <-> unique) as K.
  { rewrite andb_true_iff, !forallb_forall. split.
    - intros (A & B). split.
      + intros i j j' H1 H2. pose proof (close_bound _ _ _ _ _ H1) as B1. pose proof (close_bound _ _ _ _ _ H2) as B2. pose proof (matches_nth p1 p2 eps i (proj1 B1)) as E. fold m in E. apply nth_error_In in E.
        apply (in_map count) in E. apply A, Nat.ltb_lt in E. assert (count (map (closeb p1 p2 eps i) (seq 0 (length p2))) <= 1)%nat as E' by lia. rewrite count_le1 in E'. apply E'; apply nth_map_seq; rewrite closeb_spec; tauto.
      + intros i i' j H1 H2. pose proof (close_bound _ _ _ _ _ H1) as B1. pose proof (close_bound _ _ _ _ _ H2) as B2. pose proof (columns_nth p1 p2 eps j (proj2 B1)) as E. fold m in E. apply nth_error_In in E.
        apply (in_map count) in E. apply B, Nat.ltb_lt in E. assert (count (map (fun i => closeb p1 p2 eps i j) (seq 0 (length p1))) <= 1)%nat as E' by lia. rewrite count_le1 in E'. apply E'; apply nth_map_seq; rewrite closeb_spec; tauto.
    - intros (A & B). split; intros s Hs; apply in_map_iff in Hs; destruct Hs as (row & <- & Hr); apply Nat.ltb_lt, Nat.lt_succ_r; rewrite count_le1; apply In_nth_error in Hr; destruct Hr as (k & Hk).
      + assert (k < length p1)%nat as Lk. { rewrite <- (matches_length p1 p2 eps). apply nth_error_Some. unfold m in Hk. congruence. }
        pose proof (matches_nth p1 p2 eps k Lk) as E. fold m in E. rewrite Hk in E. injection E as ->. intros i j Hi Hj. apply nth_map_seq in Hi, Hj. rewrite closeb_spec in Hi, Hj. apply (A k); tauto.
      + assert (k < length p2)%nat as Lk. { assert (k < length (columns (length p2) m))%nat as Q by (apply nth_error_Some; congruence). unfold columns in Q. rewrite map_length, seq_length in Q. exact Q. }
        pose proof (columns_nth p1 p2 eps k Lk) as E. fold m in E. rewrite Hk in E. injection E as ->. intros i j Hi Hj. apply nth_map_seq in Hi, Hj. rewrite closeb_spec in Hi, Hj. apply (B i j k); tauto. }
  destruct (forallb _ _ && _).
  - split; [reflexivity|]. intros N. exfalso. apply N, K. reflexivity.
  - split; [|reflexivity]. intros U. apply K in U. discriminate.
Qed.
Print Assumptions C29_maskexcept.
(** 'index' lists exactly the close pairs, each once; 'count' gives the numbers of True values in the masks. *)
Lemma In_where2 m i j : In (i, j) (where2 m) <-> nth j (nth i m []) false = true.
Proof.
  unfold where2. rewrite in_concat. split.
  - intros (l & Hl & Hij). apply in_map_iff in Hl. destruct Hl as ((i', r) & <- & Hr). apply in_map_iff in Hij. cbn [fst snd] in Hij. destruct Hij as (j' & E & Hj). injection E as -> ->. apply filter_In in Hj.
    assert (nth i m [] = r) as ->; [|tauto]. apply (In_nth _ _ (0%nat, [])) in Hr. destruct Hr as (k & Lk & Ek). rewrite combine_length, seq_length, Nat.min_id in Lk. rewrite combine_nth, seq_nth in Ek by (rewrite ?seq_length; auto). injection Ek as <- <-. reflexivity.
  - intros H. assert (i < length m)%nat as Li. { destruct (le_lt_dec (length m) i) as [Hm|]; [|auto]. rewrite (nth_overflow m [] Hm) in H. destruct j; discriminate. }
    assert (j < length (nth i m []))%nat as Lj. { destruct (le_lt_dec (length (nth i m [])) j); [|auto]. rewrite nth_overflow in H by lia. discriminate. }
    exists (map (fun j => (i, j)) (filter (fun j => nth j (nth i m []) false) (seq 0 (length (nth i m []))))). split.
    + apply in_map_iff. exists (i, nth i m []). split; [reflexivity|]. assert ((i, nth i m []) = nth i (combine (seq 0 (length m)) m) (0%nat, [])) as -> by (rewrite combine_nth, seq_nth by (rewrite ?seq_length; auto); reflexivity).
      apply nth_In. rewrite combine_length, seq_length. lia.
    + apply in_map_iff. exists j. split; [auto|]. apply filter_In. split; [apply in_seq; lia|auto].
Qed.
Lemma NoDup_app2 {A} (l k : list A) : NoDup l -> NoDup k -> (forall x, In x l -> ~ In x k) -> NoDup (l ++ k).
Proof. induction 1 as [|x l Hx Hl IH]; intros Hk D; cbn; [auto|]. constructor; [rewrite in_app_iff; intros [|H]; [auto|apply (D x); cbn; auto]|apply IH; auto; intros; apply D; cbn; auto]. Qed.
Lemma NoDup_where2 m : NoDup (where2 m).
Proof.
  unfold where2. assert (forall s, NoDup (concat (map (fun ir => map (fun j => (fst ir, j)) (filter (fun j => nth j (snd ir) false) (seq 0 (length (snd ir))))) (combine (seq s (length m)) m))) /\
    forall i j, In (i, j) (concat (map (fun ir => map (fun j => (fst ir, j)) (filter (fun j => nth j (snd ir) false) (seq 0 (length (snd ir))))) (combine (seq s (length m)) m))) -> (s <= i)%nat) as K; [|apply K].
  induction m as [|r m IH]; intros s; [split; [constructor|intros i j []]|]. destruct (IH (S s)) as (A & B). cbn [length seq combine map concat fst snd]. split.
  - apply NoDup_app2; [|exact A|].
    + apply FinFun.Injective_map_NoDup; [intros x y E; congruence|]. apply NoDup_filter, seq_NoDup.
    + intros (i, j) H1 H2. apply in_map_iff in H1. destruct H1 as (? & E & _). injection E as <- <-. apply B in H2. lia.
  - intros i j H. apply in_app_iff in H. destruct H as [H|H]; [apply in_map_iff in H; destruct H as (? & E & _); injection E as <- <-; lia|apply B in H; lia].
Qed.
Theorem C29_index : forall p1 p2 eps, exists l, match_coords p1 p2 eps MIndex = Ok (RIndex l) /\ NoDup l /\ forall i j, In (i, j) l <-> close p1 p2 eps i j.
Proof.
  intros p1 p2 eps. exists (where2 (matches p1 p2 eps)). split; [reflexivity|]. split; [apply NoDup_where2|]. intros i j. rewrite In_where2. apply closeb_spec.
Qed.
Print Assumptions C29_index.
Theorem C29_count : forall p1 p2 eps m1 m2, match_coords p1 p2 eps MMask = Ok (RMasks m1 m2) ->
  match_coords p1 p2 eps MCount = Ok (RCounts (count_occ bool_dec m1 true) (count_occ bool_dec m2 true)).
Proof.
  intros p1 p2 eps m1 m2 E. cbn in E. injection E as <- <-. cbn [match_coords]. assert (forall l, count l = count_occ bool_dec l true) as K.
  { unfold count. induction l as [|[|] l IH]; cbn; [auto|now rewrite IH|auto]. }
  rewrite !K. reflexivity.
Qed.
Print Assumptions C29_count.
(** 'match2D' is the matrix with rows for the second set, not, as documented, for the first. *)
Theorem C29_match2D : forall p1 p2 eps, exists m, match_coords p1 p2 eps M2D = Ok (R2D m) /\ length m = length p2 /\
  forall i j, (j < length p2)%nat -> (nth i (nth j m []) false = true <-> close p1 p2 eps i j).
Proof.
  intros p1 p2 eps. exists (columns (length p2) (matches p1 p2 eps)). split; [reflexivity|]. split; [unfold columns; rewrite map_length, seq_length; auto|]. intros i j Hj.
  assert (nth j (columns (length p2) (matches p1 p2 eps)) [] = map (fun i => closeb p1 p2 eps i j) (seq 0 (length p1))) as -> by (apply nth_error_nth, columns_nth; auto).
  rewrite <- closeb_spec. destruct (le_lt_dec (length p1) i) as [L|L].
  - rewrite nth_overflow by (rewrite map_length, seq_length; lia). split; [discriminate|]. intros H. apply closeb_spec, close_bound in H. lia.
  - rewrite (nth_indep _ false (closeb p1 p2 eps 0 j)) by (rewrite map_length, seq_length; lia). rewrite (map_nth (fun i => closeb p1 p2 eps i j)), seq_nth by auto. reflexivity.
Qed.
Print Assumptions C29_match2D.
(** Exchanging the two sets exchanges the two masks (and so the counts), and mirrors the pairs of 'index'. *)
Lemma close_sym : forall p1 p2 eps i j, close p1 p2 eps i j <-> close p2 p1 eps j i.
Proof.
  assert (forall p1 p2 eps i j, close p1 p2 eps i j -> close p2 p1 eps j i) as K; [|intros; split; apply K].
  intros p1 p2 eps i j (a & b & c & d & E1 & E2 & H). exists c, d, a, b. split; [auto|]. split; [auto|]. replace ((c - a)^2 + (d - b)^2) with ((a - c)^2 + (b - d)^2) by ring. exact H.
Qed.
Lemma mask_ext (l k : list bool) : length l = length k -> (forall i, nth_error l i = Some true <-> nth_error k i = Some true) -> l = k.
Proof.
  revert k. induction l as [|x l IH]; intros [|y k] L H; try discriminate; [auto|]. f_equal; [|apply IH; [cbn in L; lia|intros i; apply (H (S i))]].
  specialize (H 0%nat). cbn in H. destruct x, y; auto; [assert (Some false = Some true) by (apply H; auto)|assert (Some false = Some true) by (apply H; auto)]; congruence.
Qed.
Theorem C29_symmetric : forall p1 p2 eps m1 m2, match_coords p1 p2 eps MMask = Ok (RMasks m1 m2) -> match_coords p2 p1 eps MMask = Ok (RMasks m2 m1) /\
  forall l l', match_coords p1 p2 eps MIndex = Ok (RIndex l) -> match_coords p2 p1 eps MIndex = Ok (RIndex l') -> Permutation (map (fun ij => (snd ij, fst ij)) l) l'.
Proof.
  intros p1 p2 eps m1 m2 E. split.
  - destruct (C29_masks p1 p2 eps) as (a1 & a2 & Ea & _ & L1 & L2 & A1 & A2). assert (a1 = m1 /\ a2 = m2) as (-> & ->) by (rewrite Ea in E; inversion E; auto).
    destruct (C29_masks p2 p1 eps) as (b1 & b2 & Eb & _ & M1 & M2 & B1 & B2). rewrite Eb.
    assert (b1 = m2) as ->. { apply mask_ext; [congruence|]. intros i. rewrite A2, B1. split; intros (j & H); exists j; apply close_sym; auto. }
    assert (b2 = m1) as ->. { apply mask_ext; [congruence|]. intros i. rewrite A1, B2. split; intros (j & H); exists j; apply close_sym; auto. }
    reflexivity.
  - intros l l' El El'. destruct (C29_index p1 p2 eps) as (k & Ek & Nk & Hk). destruct (C29_index p2 p1 eps) as (k' & Ek' & Nk' & Hk').
    assert (k = l) as -> by (rewrite Ek in El; inversion El; auto). assert (k' = l') as -> by (rewrite Ek' in El'; inversion El'; auto).
    apply NoDup_Permutation; [|auto|].
    + apply FinFun.Injective_map_NoDup; [|auto]. intros (a, b) (c, d) Q. cbn in Q. congruence.
    + intros (j, i). rewrite Hk', in_map_iff. split.
      * intros ((a, b) & Q & H). cbn in Q. apply Hk, close_sym in H. congruence.
      * intros H. exists (i, j). split; [reflexivity|]. apply Hk, close_sym, H.
Qed.
Print Assumptions C29_symmetric.
Lemma hyp0 eps : 0 <= eps -> sqrt ((1 - 1)^2 + (2 - 2)^2) <= eps. Proof. intros H. replace ((1 - 1)^2 + (2 - 2)^2) with 0 by ring. now rewrite sqrt_0. Qed.
Example C29_ex : close [(1, 2); (5, 5)] [(9, 9); (1, 2)] 1 0 1 /\ ~ close [(1, 2); (5, 5)] [(9, 9); (1, 2)] 1 1 0.
Proof.
  split; [exists 1, 2, 1, 2; cbn; repeat split; auto; apply hyp0; lra|]. intros (a & b & c & d & E1 & E2 & H). cbn in E1, E2. injection E1 as <- <-. injection E2 as <- <-.
  assert (2 <= sqrt ((5 - 9)^2 + (5 - 9)^2)) as Q by (apply Rsqr_incr_0_var; [unfold Rsqr; rewrite sqrt_sqrt; lra|apply sqrt_pos]). lra.
Qed.
Theorem C29_match2D_refuted : exists m, match_coords [(0, 0)] [(9, 9); (0, 0)] 1 M2D = Ok (R2D m) /\ close [(0, 0)] [(9, 9); (0, 0)] 1 0 1 /\ nth 1 (nth 0 m []) false = false.
Proof.
  destruct (C29_match2D [(0, 0)] [(9, 9); (0, 0)] 1) as (m & E & L & H). exists m. split; [exact E|]. split.
  - exists 0, 0, 0, 0. cbn. repeat split; auto. replace ((0 - 0) * ((0 - 0) * 1) + (0 - 0) * ((0 - 0) * 1)) with 0 by ring. rewrite sqrt_0. lra.
  - cbn in E. injection E as <-. reflexivity.
Qed.

(** ** mode 'nearest' *)
(** what scipy's KDTree is assumed to return: the n nearest points, in order of distance *)
Definition kd_ok (kdt : list (R * R) -> R * R -> nat -> list (R * nat)) : Prop := forall pts q n, (n <= length pts)%nat ->
  let l := kdt pts q n in length l = n /\ NoDup (map snd l) /\ Sorted (fun a b => fst a <= fst b) l /\
  (forall d i, In (d, i) l -> exists p, nth_error pts i = Some p /\ d = dist2 q p) /\
  (forall i p, nth_error pts i = Some p -> ~ In i (map snd l) -> forall d k, In (d, k) l -> d <= dist2 q p).
Lemma hypot_zero x y : hypot x y <= 0 -> x = 0 /\ y = 0.
Proof.
  unfold hypot. intros H. pose proof (sqrt_pos (x * x + y * y)). assert (sqrt (x * x + y * y) = 0) as E by lra. apply sqrt_eq_0 in E; [|nra]. split; nra.
Qed.
Lemma dist2_refl p : dist2 p p = 0. Proof. unfold dist2, hypot. replace ((fst p - fst p) * (fst p - fst p) + (snd p - snd p) * (snd p - snd p)) with 0 by ring. apply sqrt_0. Qed.
Lemma dist2_zero p q : dist2 p q <= 0 -> p = q. Proof. unfold dist2. intros H. apply hypot_zero in H. destruct p, q; cbn in *. f_equal; lra. Qed.
Lemma dist2_pos p q : 0 <= dist2 p q. Proof. apply sqrt_pos. Qed.
(** For different sets each answer is the index of a nearest point of the second set, its distance, and whether that is within eps. *)
Theorem C29_nearest : forall kdt p1 p2 eps, kd_ok kdt -> p2 <> [] -> let out := match_coords_nearest kdt p1 p2 eps false in length out = length p1 /\
  forall k q, nth_error p1 k = Some q -> exists i d b p, nth_error out k = Some (i, d, b) /\ nth_error p2 i = Some p /\ d = dist2 q p /\
    (forall p', In p' p2 -> d <= dist2 q p') /\ (b = true <-> d <= eps).
Proof.
  intros kdt p1 p2 eps Hk Hn. cbv zeta. unfold match_coords_nearest, match_nearest. split; [now rewrite !map_length|]. intros k q Ek. rewrite !nth_error_map, Ek. cbn [option_map].
  destruct (Hk p2 q 1%nat) as (L & _ & _ & A & B); [destruct p2; [congruence|cbn; lia]|]. destruct (kdt p2 q 1%nat) as [|(d, i) [|? ?]]; try discriminate. cbn [nth Nat.sub fst snd].
  destruct (A d i (or_introl eq_refl)) as (p & Ep & ->). exists i, (dist2 q p), (Rleb (dist2 q p) eps), p. repeat split; auto.
  - intros p' Hp'. apply In_nth_error in Hp'. destruct Hp' as (j & Ej). destruct (Nat.eq_dec j i) as [->|Hne]; [assert (p' = p) as -> by congruence; lra|]. apply (B j p' Ej) with (k := i); [cbn; intros [|[]]; auto|left; auto].
  - unfold Rleb. destruct (Rle_dec _ _); [auto|discriminate].
  - intros. unfold Rleb. destruct (Rle_dec _ _); [auto|lra].
Qed.
Print Assumptions C29_nearest.
(** For a set matched with itself whose points are all different, each answer is a nearest other point. *)
Theorem C29_nearest_self : forall kdt p eps, kd_ok kdt -> (2 <= length p)%nat -> NoDup p -> let out := match_coords_nearest kdt p p eps true in
  forall k q, nth_error p k = Some q -> exists i d b r, nth_error out k = Some (i, d, b) /\ i <> k /\ nth_error p i = Some r /\ d = dist2 q r /\
    (forall j s, nth_error p j = Some s -> j <> k -> d <= dist2 q s) /\ (b = true <-> d <= eps).
Proof.
  intros kdt p eps Hk Hn Hd. cbv zeta. unfold match_coords_nearest, match_nearest. intros k q Ek. rewrite !nth_error_map, Ek. cbn [option_map].
  destruct (Hk p q 2%nat Hn) as (L & Nd & So & A & B). destruct (kdt p q 2%nat) as [|(d1, i1) [|(d2, i2) [|? ?]]]; try discriminate. cbn [nth Nat.sub fst snd].
  destruct (A d1 i1 (or_introl eq_refl)) as (r1 & E1 & D1). destruct (A d2 i2 (or_intror (or_introl eq_refl))) as (r2 & E2 & D2).
  assert (d1 <= d2) as Le. { inversion So as [|? ? _ Hh]; subst. inversion Hh; subst. auto. }
  assert (i1 <> i2) as Hi. { cbn in Nd. inversion Nd as [|? ? Hni _]; subst. intros ->. apply Hni. left. auto. }
  assert (forall i j s, nth_error p i = Some s -> nth_error p j = Some s -> i = j) as Uni. { intros i j s Ei Ej. apply (proj1 (NoDup_nth_error p) Hd); [apply nth_error_Some; rewrite Ei; discriminate|rewrite Ei, Ej; reflexivity]. }
  assert (i2 <> k) as H2. { intros ->. assert (r2 = q) as -> by congruence. rewrite dist2_refl in D2. assert (q = r1) by (apply dist2_zero; lra). subst r1. apply Hi. eapply Uni; eauto. }
  assert (i1 = k) as H1. { destruct (Nat.eq_dec i1 k) as [|Hne]; [auto|]. exfalso. assert (d2 <= dist2 q q) as Q by (apply (B k q Ek) with (k := i2); [cbn; intros [|[|[]]]; auto|right; left; auto]). rewrite dist2_refl in Q. assert (q = r2) by (apply dist2_zero; lra). subst r2. apply H2. eapply Uni; eauto. }
  exists i2, d2, (Rleb d2 eps), r2. split; [reflexivity|]. split; [auto|]. split; [auto|]. split; [auto|]. split.
  - intros j s Ej Hj. destruct (Nat.eq_dec j i2) as [->|Hne]; [assert (s = r2) as -> by congruence; lra|]. apply (B j s Ej) with (k := i2); [cbn [map snd In]; intros [X|[X|[]]]; subst; tauto|right; left; auto].
  - unfold Rleb. destruct (Rle_dec _ _); [tauto|]. split; [discriminate|lra].
Qed.
Print Assumptions C29_nearest_self.
(** ** a kd-tree by exhaustive search satisfies the hypothesis *)
Fixpoint kinsert (x : R * nat) (l : list (R * nat)) : list (R * nat) := match l with [] => [x] | y :: r => if Rle_dec (fst x) (fst y) then x :: l else y :: kinsert x r end.
Definition ksort (l : list (R * nat)) : list (R * nat) := fold_right kinsert [] l.
Definition kd_brute (pts : list (R * R)) (q : R * R) (n : nat) : list (R * nat) := firstn n (ksort (combine (map (dist2 q) pts) (seq 0 (length pts)))).
Lemma kinsert_perm x l : Permutation (x :: l) (kinsert x l).
Proof. induction l as [|y l IH]; cbn; [auto|]. destruct (Rle_dec _ _); [auto|]. rewrite perm_swap. now constructor. Qed.
Lemma ksort_perm l : Permutation l (ksort l). Proof. induction l as [|x l IH]; cbn; [auto|]. rewrite <- kinsert_perm. now constructor. Qed.
Lemma kinsert_sorted x l : StronglySorted (fun a b => fst a <= fst b) l -> StronglySorted (fun a b => fst a <= fst b) (kinsert x l).
Proof.
  induction 1 as [|y l Hl IH Hy]; cbn; [repeat constructor|]. destruct (Rle_dec (fst x) (fst y)) as [L|L].
  - constructor; [now constructor|]. constructor; [auto|]. eapply Forall_impl; [|exact Hy]. cbn. intros; lra.
  - constructor; [auto|]. rewrite Forall_forall in *. intros z Hz. apply (Permutation_in _ (Permutation_sym (kinsert_perm x l))) in Hz. destruct Hz as [<-|Hz]; [lra|auto].
Qed.
Lemma ksort_sorted l : StronglySorted (fun a b => fst a <= fst b) (ksort l). Proof. induction l; cbn; [constructor|now apply kinsert_sorted]. Qed.
Lemma ss_app_inv {A} (R : A -> A -> Prop) l k : StronglySorted R (l ++ k) -> StronglySorted R l /\ forall x y, In x l -> In y k -> R x y.
Proof.
  induction l as [|a l IH]; cbn; intros H; [split; [constructor|intros x y []]|]. inversion H as [|? ? H1 H2]; subst. destruct (IH H1) as (A1 & B). rewrite Forall_forall in H2. split.
  - constructor; [auto|]. apply Forall_forall. intros x Hx. apply H2, in_app_iff. auto.
  - intros x y [<-|Hx] Hy; [apply H2, in_app_iff; auto|auto].
Qed.
Lemma In_table q pts : forall s d i, In (d, i) (combine (map (dist2 q) pts) (seq s (length pts))) <-> (s <= i)%nat /\ exists p, nth_error pts (i - s) = Some p /\ d = dist2 q p.
Proof.
  induction pts as [|p0 pts IH]; intros s d i; cbn [map length seq combine In].
  - split; [tauto|]. intros (_ & p & E & _). destruct (i - s)%nat; discriminate.
  - rewrite IH. split.
    + intros [E|(L & p & E & D)]; [injection E as <- <-; split; [lia|]; exists p0; rewrite Nat.sub_diag; auto|]. split; [lia|]. exists p. split; [|auto]. replace (i - s)%nat with (S (i - S s)) by lia. exact E.
    + intros (L & p & E & D). destruct (Nat.eq_dec i s) as [->|Hne]; [left; rewrite Nat.sub_diag in E; injection E as <-; now rewrite D|right]. split; [lia|]. exists p. split; [|auto]. replace (i - s)%nat with (S (i - S s)) in E by lia. exact E.
Qed.
Theorem kd_brute_ok : kd_ok kd_brute.
Proof.
  intros pts q n Hn. cbv zeta. unfold kd_brute. set (T := combine (map (dist2 q) pts) (seq 0 (length pts))). assert (length T = length pts) as LT by (unfold T; rewrite combine_length, map_length, seq_length; lia).
  pose proof (ksort_perm T) as P. pose proof (ksort_sorted T) as S. rewrite <- (firstn_skipn n (ksort T)) in S. destruct (ss_app_inv _ _ _ S) as (S1 & S2).
  assert (forall d i, In (d, i) (ksort T) <-> exists p, nth_error pts i = Some p /\ d = dist2 q p) as InT.
  { intros d i. split; intros H.
    - apply (Permutation_in _ (Permutation_sym P)) in H. unfold T in H. rewrite In_table in H. destruct H as (_ & p & E & D). rewrite Nat.sub_0_r in E. eauto.
    - apply (Permutation_in _ P). unfold T. rewrite In_table. destruct H as (p & E & D). split; [lia|]. exists p. now rewrite Nat.sub_0_r. }
  assert (NoDup (map snd (ksort T))) as ND. { eapply Permutation_NoDup; [apply Permutation_map, P|]. unfold T. assert (map snd (combine (map (dist2 q) pts) (seq 0 (length pts))) = seq 0 (length pts)) as ->; [|apply seq_NoDup].
    generalize 0%nat. clear. induction pts as [|p l IH]; intros s; [reflexivity|]. cbn. now rewrite IH. }
  split; [rewrite firstn_length, <- (Permutation_length P); lia|]. split.
  { rewrite <- (firstn_skipn n (ksort T)), map_app in ND. clear - ND. induction (map snd (firstn n (ksort T))) as [|x l IH]; [constructor|]. inversion ND; subst. constructor; [intros Hx; apply H1, in_app_iff; auto|auto]. }
  split; [now apply StronglySorted_Sorted|]. split.
  - intros d i Hi. apply InT. rewrite <- (firstn_skipn n (ksort T)), in_app_iff. auto.
  - intros i p Ei Hni d k Hd. assert (In (dist2 q p, i) (ksort T)) as H by (apply InT; eauto). rewrite <- (firstn_skipn n (ksort T)), in_app_iff in H. destruct H as [H|H].
    + exfalso. apply Hni. change i with (snd (dist2 q p, i)). now apply in_map.
    + apply (S2 (d, k) (dist2 q p, i)); auto.
Qed.
(** With two equal points a point can be matched to itself. *)
Theorem C29_nearest_self_refuted : exists kdt, kd_ok kdt /\ match_coords_nearest kdt [(0, 0); (0, 0)] [(0, 0); (0, 0)] 1 true = [(1%nat, 0, true); (1%nat, 0, true)].
Proof.
  exists kd_brute. split; [exact kd_brute_ok|]. unfold match_coords_nearest, match_nearest, kd_brute. cbn [map length seq combine]. rewrite !dist2_refl.
  assert (ksort [(0, 0%nat); (0, 1%nat)] = [(0, 0%nat); (0, 1%nat)]) as E. { cbn. destruct (Rle_dec 0 0); [reflexivity|lra]. } rewrite E. cbn. unfold Rleb. destruct (Rle_dec 0 1); [reflexivity|lra].
Qed.

(** ** C37 *)
(** equal up to whole multiples of m *)
Definition congruent (m x y : R) : Prop := exists k : Z, x = y + IZR k * m.
Lemma pymod_congruent x m : congruent m (pymod x m) x.
Proof. destruct (pymod_cong x m) as (k & E). exists k. exact E. Qed.
Lemma pymod_congr_eq m x y : 0 < m -> congruent m x y -> pymod x m = pymod y m.
Proof. intros H (k & ->). now apply pymod_shift. Qed.
(** The Earth rotation angle is in [0,1) turns and, modulo full turns, linear in the Julian date: 0.7790572732640 at J2000 with rate
    1.00273781191135448 turns per day.  The other units are the same angle. *)
Theorem C37_era : forall jd, 0 <= earth_rotation_angle jd Turns < 1 /\
  congruent 1 (earth_rotation_angle jd Turns) (7790572732640 / 10^13 + (1 + 273781191135448 / 10^17) * (jd - 2451545)) /\
  earth_rotation_angle jd Degrees = 360 * earth_rotation_angle jd Turns /\ earth_rotation_angle jd Radians = 2 * PI * earth_rotation_angle jd Turns /\
  (forall n : Z, congruent 1 (earth_rotation_angle (jd + IZR n) Turns) (earth_rotation_angle jd Turns + IZR n * (273781191135448 / 10^17))).
Proof.
  assert (forall jd, congruent 1 (earth_rotation_angle jd Turns) (7790572732640 / 10^13 + (1 + 273781191135448 / 10^17) * (jd - 2451545))) as L.
  { intros jd. unfold earth_rotation_angle, jd2000. destruct (pymod_cong (7790572732640 / 10000000000000 + 273781191135448 / 100000000000000000 * (jd - 2451545) + pymod (jd - 2451545) 1) 1) as (k & E).
    destruct (pymod_cong (jd - 2451545) 1) as (k' & E'). exists (k + k')%Z. rewrite E, E', plus_IZR. lra. }
  intros jd. split; [apply pymod_range; lra|]. split; [apply L|]. split; [unfold earth_rotation_angle; ring|]. split; [unfold earth_rotation_angle; ring|]. intros n.
  destruct (L jd) as (k & E). destruct (L (jd + IZR n)) as (k' & E'). exists (k' - k + n)%Z. rewrite E, E', plus_IZR, minus_IZR. lra.
Qed.
Print Assumptions C37_era.
(** Sidereal times are in [0,24) hours; apparent minus mean time is, modulo 24 hours, the nutation term; the equations of the equinoxes and of the origins are what their names say up to 24 hours. *)
Theorem C37_sidereal : forall poly corr jd ap, 0 <= greenwich_sidereal_time poly corr jd ap < 24 /\
  congruent 24 (greenwich_sidereal_time poly corr jd false) (24 * earth_rotation_angle jd Turns + poly ((jd - 2451545) / 36525) * 12 / PI) /\
  congruent 24 (equation_of_the_equinoxes poly corr jd) (corr jd * 12 / PI) /\
  congruent 24 (equation_of_the_origins poly corr jd) (- (poly ((jd - 2451545) / 36525) + corr jd) * 12 / PI) /\
  -24 < equation_of_the_equinoxes poly corr jd < 24 /\ -24 < equation_of_the_origins poly corr jd < 24.
Proof.
  intros poly corr jd ap. assert (forall ap, 0 <= greenwich_sidereal_time poly corr jd ap < 24) as Rg by (intros [|]; apply pymod_range; lra). split; [apply Rg|].
  set (P := poly ((jd - 2451545) / 36525)). pose proof PI_neq0.
  assert (congruent 24 (greenwich_sidereal_time poly corr jd false) (24 * earth_rotation_angle jd Turns + P * 12 / PI)) as C1.
  { unfold greenwich_sidereal_time. destruct (pymod_cong ((earth_rotation_angle jd Radians + P) * 12 / PI) 24) as (k & E). exists k. fold P. rewrite E. f_equal. destruct (C37_era jd) as (_ & _ & _ & -> & _). field. auto. }
  assert (congruent 24 (greenwich_sidereal_time poly corr jd true) (24 * earth_rotation_angle jd Turns + (P + corr jd) * 12 / PI)) as C2.
  { unfold greenwich_sidereal_time. destruct (pymod_cong ((earth_rotation_angle jd Radians + P + corr jd) * 12 / PI + 0) 24) as (k & E). exists k. fold P. rewrite E. f_equal. destruct (C37_era jd) as (_ & _ & _ & -> & _). field. auto. }
  split; [exact C1|]. destruct C1 as (k1 & E1), C2 as (k2 & E2). split; [|split; [|split]].
  - exists (k2 - k1)%Z. unfold equation_of_the_equinoxes. rewrite E1, E2, minus_IZR. field. auto.
  - exists (- k2)%Z. unfold equation_of_the_origins. rewrite E2, opp_IZR. field. auto.
  - unfold equation_of_the_equinoxes. pose proof (Rg true). pose proof (Rg false). lra.
  - unfold equation_of_the_origins. pose proof (Rg true). destruct (C37_era jd) as (Q & _). lra.
Qed.
Print Assumptions C37_sidereal.
(** The equation of the equinoxes (about a second) is not reduced: at the moment the mean time is 0 and the nutation is negative it is almost 24 hours. *)
Theorem C37_equinoxes_refuted : forall poly corr jd, greenwich_sidereal_time poly corr jd false = 0 -> -1 / 100 < corr jd * 12 / PI < 0 -> equation_of_the_equinoxes poly corr jd > 239 / 10.
Proof.
  intros poly corr jd H Hc. destruct (C37_sidereal poly corr jd true) as ((R1 & R2) & _ & (k & E) & _). unfold equation_of_the_equinoxes in *. rewrite H in *. rewrite Rminus_0_r in *. rewrite E in *.
  assert (k = 1%Z) as ->; [|lra]. assert (0 < IZR k < 2) as (A & B) by lra. apply lt_IZR in A, B. lia.
Qed.
Example C37_ex : greenwich_sidereal_time (fun _ => - earth_rotation_angle 5 Radians) (fun _ => - (1 / 10000)) 5 false = 0 /\ -1 / 100 < - (1 / 10000) * 12 / PI < 0.
Proof.
  split.
  - unfold greenwich_sidereal_time. rewrite Rplus_opp_r. unfold Rdiv. rewrite !Rmult_0_l. apply pymod_id; lra.
  - pose proof PI_RGT_0. pose proof PI2_1. assert (0 < / PI) by (apply Rinv_0_lt_compat; lra). assert (/ PI < 1) by (rewrite <- Rinv_1; apply Rinv_lt_contravar; lra). unfold Rdiv. split; nra.
Qed.
