(** * StatBins: binned weights (C95) *)
From Coq Require Import List Bool Arith Reals ZArith Lia Lra Permutation Sorted.
From Verif Require Import PyBase AlgModel AlgClip StatModel.
Import ListNotations.
Open Scope R_scope.

(** ** Specification: ten equal parts of the range of the values *)
Definition least (x : list R) (m : R) : Prop := In m x /\ forall v, In v x -> m <= v.
Definition greatest (x : list R) (m : R) : Prop := In m x /\ forall v, In v x -> v <= m.
(** the part of the range from mi to ma a value is in, counted from 0; the last part includes ma *)
Definition tenth (mi ma : R) (i : nat) (v : R) : Prop :=
  (i < 10)%nat /\ (mi + (ma - mi) / 10 * INR i <= v < mi + (ma - mi) / 10 * (INR i + 1) \/ i = 9%nat /\ v = ma).
(** values in the same part of the range *)
Definition together (mi ma v w : R) : Prop := mi = ma \/ exists i, tenth mi ma i v /\ tenth mi ma i w.
(** k of the values of x satisfy P *)
Inductive counted {A} (P : A -> Prop) : list A -> nat -> Prop :=
| counted_nil : counted P [] 0
| counted_yes a x k : P a -> counted P x k -> counted P (a :: x) (S k)
| counted_no a x k : ~ P a -> counted P x k -> counted P (a :: x) k.

(** ** Edges *)
Lemma lo_least x : x <> [] -> least x (lo x).
Proof.
  intros N. assert (L : (0 < List.length (sort x))%nat) by (rewrite sort_length; destruct x; [congruence|cbn; lia]). split.
  - unfold lo. apply (Permutation_in _ (Permutation_sym (sort_perm x))), nth_In. exact L.
  - intros v V. apply (Permutation_in _ (sort_perm x)) in V. destruct (In_nth _ _ 0 V) as (i & I' & <-). apply ss_nth; [apply sort_sorted|lia].
Qed.
Lemma hi_greatest x : x <> [] -> greatest x (hi x).
Proof.
  intros N. assert (L : (0 < List.length (sort x))%nat) by (rewrite sort_length; destruct x; [congruence|cbn; lia]). unfold hi. rewrite <- (sort_length x). split.
  - apply (Permutation_in _ (Permutation_sym (sort_perm x))), nth_In. lia.
  - intros v V. apply (Permutation_in _ (sort_perm x)) in V. destruct (In_nth _ _ 0 V) as (i & I' & <-). apply ss_nth; [apply sort_sorted|lia].
Qed.
Lemma least_unique x m m' : least x m -> least x m' -> m = m'.
Proof. intros [A B] [C D]. apply Rle_antisym; auto. Qed.
Lemma greatest_unique x m m' : greatest x m -> greatest x m' -> m = m'.
Proof. intros [A B] [C D]. apply Rle_antisym; auto. Qed.

Lemma range_pos x : x <> [] -> fst (hrange x) < snd (hrange x) /\ (forall v, In v x -> fst (hrange x) <= v <= snd (hrange x)).
Proof.
  intros N. pose proof (lo_least x N) as [A B]. pose proof (hi_greatest x N) as [C D]. unfold hrange. destruct (Req_EM_T (lo x) (hi x)) as [E|E]; cbn [fst snd].
  - split; [lra|]. intros v V. pose proof (B v V). pose proof (D v V). lra.
  - split; [pose proof (B _ C); lra|]. intros v V. split; auto.
Qed.
Lemma edge_eq x i : edge x i = fst (hrange x) + (snd (hrange x) - fst (hrange x)) / 10 * INR i.
Proof. unfold edge. field. Qed.
Lemma edge_10 x : edge x 10 = snd (hrange x).
Proof. rewrite edge_eq. replace (INR 10) with 10 by (rewrite INR_IZR_INZ; reflexivity). field. Qed.
Lemma edge_step x i : x <> [] -> edge x i < edge x (i + 1).
Proof. intros N. destruct (range_pos x N) as [P _]. rewrite !edge_eq, plus_INR. cbn [INR]. lra. Qed.
Lemma edge_mono x i j : x <> [] -> (i <= j)%nat -> edge x i <= edge x j.
Proof. intros N L. destruct (range_pos x N) as [P _]. rewrite !edge_eq. apply le_INR in L. assert (0 < (snd (hrange x) - fst (hrange x)) / 10) by lra. nra. Qed.
(** the bin of a value *)
Definition inb (x : list R) (i : nat) (v : R) : Prop := (i < 10)%nat /\ (edge x i <= v < edge x (i + 1) \/ i = 9%nat /\ v = edge x 10).
Lemma in_bin_spec x i v : x <> [] -> (i < 10)%nat -> (in_bin x i v = true <-> inb x i v).
Proof.
  intros N I'. unfold in_bin, inb. destruct (Rle_dec (edge x i) v) as [A|A].
  - destruct (Rlt_dec v (edge x (i + 1))) as [B|B]; [split; [intros _; auto|reflexivity]|].
    destruct (Nat.eqb_spec i 9) as [->|E].
    + destruct (Req_EM_T v (edge x 10)); [split; auto|]. split; [discriminate|]. intros [_ [Q|[_ Q]]]; [lra|contradiction].
    + split; [discriminate|]. intros [_ [Q|[Q _]]]; [lra|contradiction].
  - split; [discriminate|]. intros [_ [Q|[-> Q]]]; [lra|]. exfalso. apply A. rewrite Q. apply edge_mono; [exact N|lia].
Qed.
Lemma inb_unique x i j v : x <> [] -> inb x i v -> inb x j v -> i = j.
Proof.
  intros N [Hi A] [Hj B]. assert (G : forall i j, (i < j < 10)%nat -> inb x i v -> inb x j v -> False).
  { clear i j Hi Hj A B. intros i j L [Hi A] [Hj B]. assert (E : edge x (i + 1) <= edge x j) by (apply edge_mono; [exact N|lia]). assert (E' : edge x j < edge x 10). { apply Rlt_le_trans with (edge x (j + 1)); [now apply edge_step|apply edge_mono; [exact N|lia]]. }
    destruct A as [A|[A _]]; [|lia]. destruct B as [B|[_ B]]; lra. }
  destruct (Nat.lt_trichotomy i j) as [L|[L|L]]; [exfalso; apply (G i j); unfold inb; auto; lia|exact L|exfalso; apply (G j i); unfold inb; auto; lia].
Qed.
Lemma inb_exists x v : x <> [] -> In v x -> exists i, inb x i v.
Proof.
  intros N V. destruct (range_pos x N) as [P B]. specialize (B v V). assert (E0 : edge x 0 <= v) by (rewrite edge_eq; cbn [INR]; lra). 
  assert (G : forall k, (exists i, (i < k)%nat /\ edge x i <= v < edge x (i + 1)) \/ edge x k <= v).
  { induction k as [|k [(i & I1 & I2)|IH]]; [now right|left; exists i; auto|]. destruct (Rlt_dec v (edge x (k + 1))) as [L|L]; [left; exists k; auto with arith|right]. replace (S k) with (k + 1)%nat by lia. lra. }
  destruct (G 10%nat) as [(i & I1 & I2)|E]; [exists i; split; auto|]. exists 9%nat. split; [lia|right; split; [reflexivity|]]. rewrite edge_10 in *. lra.
Qed.
Lemma weight_bin x i v : x <> [] -> inb x i v -> weight x v = 1 / INR (bin_count x i).
Proof.
  intros N B. pose proof B as [I' D]. unfold weight. destruct (Req_EM_T (edge x 10) v) as [E|E].
  - assert (inb x 9 v) by (split; [lia|right; auto]). now rewrite (inb_unique x i 9 v N B).
  - destruct D as [D|[_ D]]; [|congruence].
    assert (G : forall n b r, (forall j, (b <= j < b + n)%nat -> ~ (edge x j <= v < edge x (j + 1))) -> fold_left (fun r i => if Rle_dec (edge x i) v then if Rlt_dec v (edge x (i + 1)) then 1 / INR (bin_count x i) else r else r) (seq b n) r = r).
    { induction n as [|n IH]; intros b r H; [reflexivity|]. cbn [seq fold_left]. rewrite IH by (intros j J; apply H; lia). specialize (H b ltac:(lia)). destruct (Rle_dec (edge x b) v); [|reflexivity]. destruct (Rlt_dec v (edge x (b + 1))); [exfalso; apply H; auto|reflexivity]. }
    assert (U : forall j, (j < 10)%nat -> j <> i -> ~ (edge x j <= v < edge x (j + 1))) by (intros j J Q C; apply Q, (inb_unique x j i v N); [split; auto|exact B]).
    replace (seq 0 10) with (seq 0 i ++ i :: seq (S i) (9 - i)). 2: { replace 10%nat with (i + S (9 - i))%nat by lia. rewrite seq_app. reflexivity. }
    rewrite fold_left_app. cbn [fold_left]. rewrite G by (intros j J; apply U; lia). rewrite G by (intros j J; apply U; lia). destruct (Rle_dec (edge x i) v); [|lra]. destruct (Rlt_dec v (edge x (i + 1))); [reflexivity|lra].
Qed.
(** bins are tenths *)
Lemma inb_tenth x mi ma i v : least x mi -> greatest x ma -> mi <> ma -> (inb x i v <-> tenth mi ma i v).
Proof.
  intros A B E. assert (N : x <> []) by (intros ->; destruct A as [[] _]). rewrite (least_unique x mi (lo x) A (lo_least x N)) in *. rewrite (greatest_unique x ma (hi x) B (hi_greatest x N)) in *.
  unfold inb, tenth. rewrite edge_10, !edge_eq, plus_INR. cbn [INR]. unfold hrange. destruct (Req_EM_T (lo x) (hi x)) as [Q|Q]; [contradiction|]. cbn [fst snd]. tauto.
Qed.
Lemma inb_same x mi i v : least x mi -> greatest x mi -> In v x -> inb x i v -> i = 5%nat.
Proof.
  intros A B V H. assert (N : x <> []) by (intros ->; contradiction). apply (inb_unique x i 5 v N H). split; [lia|left].
  assert (v = mi) by (apply Rle_antisym; [now apply B|now apply A]). subst v.
  pose proof (least_unique x mi (lo x) A (lo_least x N)) as E1. pose proof (greatest_unique x mi (hi x) B (hi_greatest x N)) as E2. rewrite !edge_eq. unfold hrange. destruct (Req_EM_T (lo x) (hi x)) as [Q|Q]; [|exfalso; lra]. cbn [fst snd].
  replace (INR (5 + 1)) with 6 by (rewrite INR_IZR_INZ; reflexivity). replace (INR 5) with 5 by (rewrite INR_IZR_INZ; reflexivity). lra.
Qed.
Lemma together_bin x mi ma i v w : least x mi -> greatest x ma -> In w x -> In v x -> inb x i v -> (together mi ma v w <-> inb x i w).
Proof.
  intros A B W V H. assert (N : x <> []) by (intros ->; contradiction). unfold together. destruct (Req_dec mi ma) as [E|E].
  - subst ma. destruct (inb_exists x w N W) as (j & J). rewrite (inb_same x mi i v A B V H). rewrite (inb_same x mi j w A B W J) in J. tauto.
  - split.
    + intros [Q|(j & J1 & J2)]; [contradiction|]. apply (inb_tenth x mi ma) in J1; auto. apply (inb_tenth x mi ma) in J2; auto. now rewrite (inb_unique x i j v N H J1).
    + intros J. right. exists i. rewrite <- !(inb_tenth x mi ma) by auto. auto.
Qed.
Lemma counted_filter {A} (P : A -> Prop) (p : A -> bool) l : (forall a, In a l -> p a = true <-> P a) -> counted P l (List.length (filter p l)).
Proof.
  induction l as [|a l IH]; intros H; [constructor|]. cbn [filter]. pose proof (H a (or_introl eq_refl)) as Ha. assert (IH' := IH (fun b Hb => H b (or_intror Hb))). destruct (p a) eqn:E; cbn [List.length].
  - constructor; [now apply Ha|exact IH'].
  - constructor; [rewrite <- Ha; discriminate|exact IH'].
Qed.

(** ** C95 *)
(** the weight of a value is one over the number of values in the same tenth of the range *)
Theorem C95_weights : forall x n, x <> [] -> exists ws, binned_weights x n = Ok ws /\ List.length ws = List.length x /\
  forall mi ma, least x mi -> greatest x ma -> forall i, (i < List.length x)%nat ->
    exists k, counted (together mi ma (nth i x 0)) x k /\ (1 <= k)%nat /\ nth i ws 0 = 1 / INR k /\ 0 < nth i ws 0 <= 1.
Proof.
  intros x n N. exists (map (weight x) x). split; [destruct x; [congruence|reflexivity]|]. split; [apply map_length|]. intros mi ma A B i I'.
  pose proof (nth_In x 0 I') as V. destruct (inb_exists x _ N V) as (b & Hb). exists (bin_count x b).
  assert (K : (1 <= bin_count x b)%nat). { unfold bin_count. assert (M : In (nth i x 0) (filter (in_bin x b) x)) by (apply filter_In; split; [exact V|apply in_bin_spec; auto; apply Hb]). destruct (filter (in_bin x b) x); [contradiction|cbn; lia]. }
  assert (W : nth i (map (weight x) x) 0 = 1 / INR (bin_count x b)). { rewrite nth_map0 by exact I'. now apply weight_bin. }
  split; [|split; [exact K|split; [exact W|]]].
  - unfold bin_count. apply counted_filter. intros w W'. rewrite (together_bin x mi ma b) by auto. apply in_bin_spec; [exact N|apply Hb].
  - rewrite W. apply le_INR in K. cbn [INR] in K. split; [apply Rdiv_lt_0_compat; lra|]. apply Rmult_le_reg_r with (INR (bin_count x b)); [lra|]. unfold Rdiv. rewrite Rmult_assoc, Rinv_l by lra. lra.
Qed.
(** each occupied tenth has total weight 1: the weights sum to the number of occupied tenths *)
Lemma bins_sum x (bs : list nat) : x <> [] -> NoDup bs -> (forall b, In b bs -> (b < 10)%nat) -> forall l, (forall v, In v l -> exists b, In b bs /\ inb x b v) ->
  rsum (map (weight x) l) = rsum (map (fun b => INR (List.length (filter (in_bin x b) l)) / INR (bin_count x b)) bs).
Proof.
  intros N ND B l. induction l as [|v l IH]; intros H.
  - cbn [map filter List.length INR]. symmetry. unfold Rdiv. induction bs as [|b bs IHb]; [reflexivity|]. cbn [map rsum fold_right]. inversion ND; subst. fold (rsum (map (fun b => 0 * / INR (bin_count x b)) bs)). rewrite IHb; auto; [unfold rsum; cbn; ring|intros; apply B; now right|intros ? []].
  - cbn [map rsum fold_right]. fold (rsum (map (weight x) l)). rewrite IH by (intros w W; apply H; now right). destruct (H v (or_introl eq_refl)) as (b & Hb & Iv). rewrite (weight_bin x b v N Iv). clear IH.
    revert ND B Hb. clear H. induction bs as [|c bs IHb]; intros ND B Hb; [contradiction|]. inversion ND as [|? ? NI ND']; subst. cbn [map rsum fold_right filter].
    fold (rsum (map (fun b => INR (List.length (filter (in_bin x b) l)) / INR (bin_count x b)) bs)) (rsum (map (fun b => INR (List.length (if in_bin x b v then v :: filter (in_bin x b) l else filter (in_bin x b) l)) / INR (bin_count x b)) bs)).
    assert (Bc : (c < 10)%nat) by (apply B; now left). destruct (Nat.eq_dec c b) as [->|Ne].
    + rewrite (proj2 (in_bin_spec x b v N Bc) Iv). cbn [List.length]. rewrite S_INR.
      assert (Q : map (fun b => INR (List.length (if in_bin x b v then v :: filter (in_bin x b) l else filter (in_bin x b) l)) / INR (bin_count x b)) bs = map (fun b => INR (List.length (filter (in_bin x b) l)) / INR (bin_count x b)) bs).
      { apply map_ext_in. intros d D. destruct (in_bin x d v) eqn:E; [|reflexivity]. exfalso. apply NI. apply in_bin_spec in E; [|exact N|apply B; now right]. now rewrite (inb_unique x b d v N Iv E). }
      rewrite Q. unfold Rdiv. ring.
    + destruct Hb as [Hb|Hb]; [contradiction|]. destruct (in_bin x c v) eqn:E; [exfalso; apply Ne; apply in_bin_spec in E; auto; now apply (inb_unique x c b v)|].
      cbn [filter] in IHb. rewrite <- IHb; auto; [|intros; apply B; now right]. ring.
Qed.
Lemma one_bins (f : nat -> nat) bs : rsum (map (fun b => INR (f b) / INR (f b)) bs) = INR (List.length (filter (fun b => negb (Nat.eqb (f b) 0)) bs)).
Proof.
  induction bs as [|b bs IH]; [reflexivity|]. cbn [map rsum fold_right filter]. fold (rsum (map (fun b => INR (f b) / INR (f b)) bs)). rewrite IH. destruct (Nat.eqb_spec (f b) 0) as [E|E]; cbn [negb].
  - rewrite E. cbn [INR]. unfold Rdiv. ring.
  - cbn [List.length]. rewrite S_INR. apply not_0_INR in E. field. exact E.
Qed.
Theorem C95_total : forall x n ws mi ma, binned_weights x n = Ok ws -> least x mi -> greatest x ma -> mi <> ma ->
  exists k, counted (fun i => exists v, In v x /\ tenth mi ma i v) (seq 0 10) k /\ fold_right Rplus 0 ws = INR k.
Proof.
  intros x n ws mi ma H A B E. assert (N : x <> []) by (intros ->; destruct A as [[] _]). assert (W : ws = map (weight x) x) by (destruct x; [congruence|]; cbn [binned_weights] in H; congruence). clear H. subst ws.
  exists (List.length (filter (fun b => negb (Nat.eqb (bin_count x b) 0)) (seq 0 10))). split.
  - apply counted_filter. intros b Hb. apply in_seq in Hb. rewrite negb_true_iff, Nat.eqb_neq. unfold bin_count. split.
    + intros Q. destruct (filter (in_bin x b) x) as [|v l] eqn:F; [now elim Q|]. exists v. assert (M : In v (filter (in_bin x b) x)) by (rewrite F; now left). apply filter_In in M. destruct M as [M1 M2]. split; [exact M1|]. apply (inb_tenth x); auto. apply in_bin_spec; auto. lia.
    + intros (v & V & T) Q. apply (inb_tenth x) in T; auto. assert (M : In v (filter (in_bin x b) x)) by (apply filter_In; split; [exact V|apply in_bin_spec; auto; lia]). destruct (filter (in_bin x b) x); [contradiction|discriminate].
  - fold (rsum (map (weight x) x)). rewrite (bins_sum x (seq 0 10) N (seq_NoDup _ _)); [|intros b Hb; apply in_seq in Hb; lia|intros v V; destruct (inb_exists x v N V) as (b & Hb); exists b; split; [apply in_seq; destruct Hb; lia|exact Hb]].
    apply (one_bins (bin_count x)).
Qed.
(** equal values share the weight equally; no values are refused *)
Theorem C95_equal : forall c k n, binned_weights (repeat c (S k)) n = Ok (repeat (1 / INR (S k)) (S k)) /\ binned_weights [] n = Raise ValueError.
Proof.
  intros c k n. split; [|reflexivity]. destruct (C95_weights (repeat c (S k)) n ltac:(discriminate)) as (ws & E & L & H). rewrite E. f_equal. rewrite repeat_length in *.
  apply nth_ext with (d := 0) (d' := 0); [now rewrite repeat_length|]. intros i I'. rewrite L in I'.
  assert (A : forall v, In v (repeat c (S k)) -> v = c) by (intros v V; now apply repeat_spec in V).
  destruct (H c c) with (i := i) as (m & M1 & _ & M2 & _); [split; [now left|intros v V; apply A in V; lra]|split; [now left|intros v V; apply A in V; lra]|exact I'|].
  rewrite M2. rewrite (nth_indep (repeat (1 / INR (S k)) (S k)) 0 (1 / INR (S k))) by (rewrite repeat_length; exact I'). rewrite nth_repeat. do 2 f_equal. clear - M1. revert M1. generalize (nth i (repeat c (S k)) 0). intros z M1. remember (S k) as j eqn:Ej. clear Ej k. revert m M1. induction j as [|j IH]; intros m M1; cbn [repeat] in M1; inversion M1; subst; [reflexivity| |].
  - f_equal. now apply IH.
  - exfalso. match goal with Q : ~ together _ _ _ _ |- _ => apply Q; now left end.
Qed.
(** the number of bins asked for is ignored: with two bins of four values the weights would be 1/2 and are 1 *)
Theorem C95_bins_refuted : (forall x n n', binned_weights x n = binned_weights x n') /\ binned_weights [0; 1; 2; 3] 2 = Ok [1; 1; 1; 1].
Proof.
  split; [reflexivity|]. destruct (C95_weights [0; 1; 2; 3] 2 ltac:(discriminate)) as (ws & E & L & H). rewrite E. f_equal.
  assert (A : least [0; 1; 2; 3] 0) by (split; [now left|intros v V; cbn in V; lra]). assert (B : greatest [0; 1; 2; 3] 3) by (split; [cbn; auto|intros v V; cbn in V; lra]).
  assert (T : forall v w, In v [0; 1; 2; 3] -> In w [0; 1; 2; 3] -> together 0 3 v w -> v = w).
  { intros v w V W [Q|(i & [I1 Ti] & [_ Tj])]; [lra|]. assert (S : Rabs (v - w) < 1). { assert (D : i = 9%nat -> INR i = 9) by (intros ->; rewrite INR_IZR_INZ; reflexivity). apply Rabs_def1; destruct Ti as [Ti|[Ti ->]], Tj as [Tj|[Tj ->]]; try (specialize (D ltac:(assumption))); try lra. }
    cbn [In] in V, W. assert (S' := Rabs_def2 _ _ S). intuition lra. }
  assert (G : forall i, (i < 4)%nat -> nth i ws 0 = 1).
  { intros i I'. destruct (H 0 3 A B i I') as (k & K & Kp & -> & _). assert (k = 1%nat); [|subst; cbn; field].
    assert (Z : forall l m v, NoDup l -> (forall w, In w l -> In w [0;1;2;3]) -> In v [0;1;2;3] -> counted (together 0 3 v) l m -> (m <= 1)%nat /\ (~ In v l -> m = 0)%nat).
    { clear - T. intros l. induction l as [|a l IH]; intros m v ND S V C; inversion C; subst; [split; auto| |].
      - inversion ND; subst. assert (v = a) by (apply T; auto; apply S; now left). subst. destruct (IH k a) as [_ Z]; auto; [intros; apply S; now right|]. rewrite Z by assumption. split; [auto|]. intros Q. exfalso. apply Q. now left.
      - inversion ND; subst. destruct (IH m v) as [Z1 Z2]; auto; [intros; apply S; now right|]. split; [exact Z1|]. intros Q. apply Z2. intros X. apply Q. now right. }
    pose proof (nth_In [0;1;2;3] 0 I') as V. destruct (Z [0;1;2;3] k _ ltac:(repeat constructor; cbn [In]; lra) ltac:(auto) V K) as [Z1 _].
    lia. }
  destruct ws as [|a [|b [|c [|d [|]]]]]; try discriminate. pose proof (G 0%nat ltac:(lia)). pose proof (G 1%nat ltac:(lia)). pose proof (G 2%nat ltac:(lia)). pose proof (G 3%nat ltac:(lia)). cbn [nth] in *. now subst.
Qed.
Example C95_ex : least [0; 1; 2; 3] 0 /\ greatest [0; 1; 2; 3] 3 /\ 0 <> 3 /\ tenth 0 3 3 1 /\ together 0 3 1 1.
Proof.
  assert (T : tenth 0 3 3 1) by (split; [lia|left; cbn [INR]; lra]).
  repeat split; try (intros v V; cbn in V; lra); try (cbn; auto; fail); try lra; try (apply T). right. exists 3%nat. auto.
Qed.
