(** * StatMoments: moments of arrays (C94) *)
From Coq Require Import List Bool Arith Reals ZArith Lia Lra Permutation Sorted.
From Verif Require Import PyBase AlgModel AlgClip StatModel.
Import ListNotations.
Open Scope R_scope.

(** ** Specification: axes that fit an array; pixels of an array *)
Definition fits (axes : list (list R)) (a : nd) : Prop := Forall2 (fun ax s => List.length ax = s) axes (shape a).
Definition pixel (a : nd) (ix : list nat) : Prop := Forall2 lt ix (shape a).
(** the pixels are numbered 0, 1, ... if no axes are given *)
Definition plain_axes (a : nd) : list (list R) := map (fun s => map INR (seq 0 s)) (shape a).

(** ** Multi-indices *)
Lemma in_indices shp : forall ix, In ix (indices shp) <-> Forall2 lt ix shp.
Proof.
  induction shp as [|n r IH]; intros ix; cbn [indices].
  - split; [intros [<-|[]]; constructor|intros H; inversion H; now left].
  - rewrite in_flat_map. split.
    + intros (i & I' & M). apply in_map_iff in M. destruct M as (k & <- & K). apply in_seq in I'. constructor; [lia|now apply IH].
    + intros H. inversion H; subst. exists x. split; [apply in_seq; lia|]. apply in_map. now apply IH.
Qed.
Lemma nodup_indices shp : NoDup (indices shp).
Proof.
  induction shp as [|n r IH]; cbn [indices]; [repeat constructor; auto|].
  assert (G : forall l, NoDup l -> NoDup (flat_map (fun i => map (cons i) (indices r)) l)).
  { intros l L. induction L as [|i l N L IHl]; cbn [flat_map]; [constructor|]. apply NoDup_app_remove_l with (l := []) || idtac.
    assert (ND : NoDup (map (cons i) (indices r))) by (apply FinFun.Injective_map_NoDup; [intros x y E; now injection E|exact IH]).
    clear IH. revert ND. generalize (indices r) at 1 2. intros q ND.
    induction q as [|k q IHq]; cbn [map app]; [exact IHl|]. inversion ND; subst. constructor; [|apply IHq; assumption].
    intros X. apply in_app_or in X. destruct X as [X|X]; [contradiction|]. apply in_flat_map in X. destruct X as (j & J & X). apply in_map_iff in X. destruct X as (k' & E & _). injection E as <- _. contradiction. }
  apply G, seq_NoDup.
Qed.
Lemma rsum_map_ext (f g : list nat -> R) l : (forall x, In x l -> f x = g x) -> rsum (map f l) = rsum (map g l).
Proof. intros H. f_equal. apply map_ext_in. exact H. Qed.
Lemma rsum_lin {A} c (f : A -> R) l : rsum (map (fun x => c * f x) l) = c * rsum (map f l).
Proof. induction l as [|x l IH]; cbn [map rsum fold_right]; [ring|]. fold (rsum (map (fun x => c * f x) l)) (rsum (map f l)). rewrite IH. ring. Qed.
Lemma rsum_plus {A} (f g : A -> R) l : rsum (map (fun x => f x + g x) l) = rsum (map f l) + rsum (map g l).
Proof. induction l as [|x l IH]; cbn [map rsum fold_right]; [ring|]. fold (rsum (map (fun x => f x + g x) l)) (rsum (map f l)) (rsum (map g l)). rewrite IH. ring. Qed.
Lemma rsum_le {A} (f g : A -> R) l : (forall x, In x l -> f x <= g x) -> rsum (map f l) <= rsum (map g l).
Proof.
  intros H. induction l as [|x l IH]; cbn [map rsum fold_right]; [lra|]. fold (rsum (map f l)) (rsum (map g l)).
  pose proof (H x (or_introl eq_refl)). assert (rsum (map f l) <= rsum (map g l)) by (apply IH; intros y Y; apply H; now right). lra.
Qed.
Lemma rsum_zero {A} (f : A -> R) l : (forall x, In x l -> f x = 0) -> rsum (map f l) = 0.
Proof.
  intros H. induction l as [|x l IH]; cbn [map rsum fold_right]; [reflexivity|]. fold (rsum (map f l)). rewrite H by now left. rewrite IH; [ring|]. intros y Y. apply H. now right.
Qed.
Lemma rsum_single {A} (f : A -> R) l x : NoDup l -> In x l -> (forall y, In y l -> y <> x -> f y = 0) -> rsum (map f l) = f x.
Proof.
  intros N I' H. induction N as [|a l Na N IH]; [contradiction|]. cbn [map rsum fold_right]. fold (rsum (map f l)). destruct I' as [->|I'].
  - rewrite rsum_zero; [ring|]. intros y Y. apply H; [now right|]. intros ->. contradiction.
  - rewrite (H a); [|now left|intros ->; contradiction]. rewrite IH; [ring|exact I'|]. intros y Y. apply H. now right.
Qed.
Lemma rsum_flat {A B} (f : B -> R) (g : A -> list B) l : rsum (map f (flat_map g l)) = rsum (map (fun x => rsum (map f (g x))) l).
Proof. induction l as [|x l IH]; [reflexivity|]. cbn [flat_map map rsum fold_right]. fold (rsum (map (fun x => rsum (map f (g x))) l)). rewrite map_app, rsum_app, IH. reflexivity. Qed.

(** ** The value computed *)
Definition msum (a : nd) (p : list nat -> R) : R := rsum (map (fun ix => at_ a ix * p ix) (indices (shape a))).
Lemma fits_ok axes a : fits axes a <-> Nat.eqb (List.length axes) (List.length (shape a)) && forallb (fun p => Nat.eqb (List.length (fst p)) (snd p)) (combine axes (shape a)) = true.
Proof.
  unfold fits. generalize (shape a). clear. induction axes as [|ax axes IH]; intros [|s r]; cbn; try (split; [intros H; inversion H|discriminate]); try (split; [intros; reflexivity|constructor]).
  specialize (IH r). rewrite andb_true_iff in IH. rewrite !andb_true_iff. split.
  - intros H. inversion H as [|? ? ? ? E G]; subst. apply IH in G. destruct G as [G1 G2]. split; [exact G1|split; [now apply Nat.eqb_eq|exact G2]].
  - intros (A & B & C). constructor; [now apply Nat.eqb_eq|]. apply IH. split; assumption.
Qed.
Lemma plain_fits a : fits (plain_axes a) a.
Proof. unfold fits, plain_axes. induction (shape a) as [|s r IH]; cbn; constructor; [now rewrite map_length, seq_length|exact IH]. Qed.
Lemma moments_scalar a m axes norm : fits axes a ->
  moments a (MScalar m) (Some axes) None norm false = Ok (MArray (map (fun d => msum a (fun ix => coord axes d ix ^ m) / (if norm then total a else 1)) (seq 0 (List.length (shape a))))).
Proof.
  intros F. unfold moments. apply fits_ok in F. rewrite F. do 2 f_equal. destruct norm; [now rewrite map_map|]. apply map_ext. intros d. unfold msum. field.
Qed.
Lemma moments_seq a l axes norm : fits axes a -> List.length l = List.length (shape a) ->
  moments a (MSeq l) (Some axes) None norm false = Ok (MValue (msum a (fun ix => rprod (map2 (fun m d => coord axes d ix ^ m) l (seq 0 (List.length (shape a))))) / (if norm then total a else 1))).
Proof.
  intros F L. unfold moments. apply fits_ok in F. rewrite F. apply Nat.eqb_eq in L. rewrite L. do 2 f_equal. destruct norm; [reflexivity|]. unfold msum. field.
Qed.

(** ** C94 *)
(** no axes means 0, 1, 2, ... *)
Theorem C94_default_axes : forall a ms bg norm std, moments a ms None bg norm std = moments a ms (Some (plain_axes a)) bg norm std.
Proof.
  intros a ms bg norm std. unfold moments. set (b := match bg with Some b => Nd (shape a) (fun ix => at_ a ix - b) | None => a end).
  assert (S : shape b = shape a) by (unfold b; destruct bg; reflexivity). pose proof (proj1 (fits_ok _ _) (plain_fits a)) as F. rewrite <- S in F. rewrite F. unfold plain_axes. now rewrite S.
Qed.
Theorem C94_refused : forall a ms axes bg norm std, ~ fits axes a \/ fits axes a /\ (exists l, ms = MSeq l /\ List.length l <> List.length (shape a)) ->
  moments a ms (Some axes) bg norm std = Raise ValueError.
Proof.
  intros a ms axes bg norm std H. unfold moments. set (b := match bg with Some b => Nd (shape a) (fun ix => at_ a ix - b) | None => a end).
  assert (S : shape b = shape a) by (unfold b; destruct bg; reflexivity). rewrite !S. destruct H as [H|(F & l & -> & L)].
  - destruct (_ && _) eqn:E; [|reflexivity]. exfalso. apply H, fits_ok. exact E.
  - apply fits_ok in F. rewrite F. apply Nat.eqb_neq in L. now rewrite L.
Qed.
(** the centroid of a non-negative array lies between the coordinates of its axes *)
Theorem C94_centroid : forall a axes d u w, fits axes a -> (d < List.length (shape a))%nat -> (forall ix, pixel a ix -> 0 <= at_ a ix) -> (exists ix, pixel a ix /\ 0 < at_ a ix) ->
  (forall x, In x (nth d axes []) -> u <= x <= w) ->
  exists l, moments a (MScalar 1) (Some axes) None true false = Ok (MArray l) /\ List.length l = List.length (shape a) /\ u <= nth d l 0 <= w.
Proof.
  intros a axes d u w F D P (ix0 & X0 & X1) B. rewrite moments_scalar by exact F. eexists. split; [reflexivity|]. rewrite map_length, seq_length. split; [reflexivity|].
  rewrite (nth_indep _ 0 ((fun d => msum a (fun ix => coord axes d ix ^ 1) / total a) 0%nat)) by (rewrite map_length, seq_length; exact D).
  rewrite (map_nth (fun d => msum a (fun ix => coord axes d ix ^ 1) / total a)), seq_nth by exact D. cbn [Nat.add].
  assert (C : forall ix, pixel a ix -> u <= coord axes d ix <= w).
  { intros ix X. apply B. unfold coord. apply nth_In. clear - F D X. unfold fits, pixel in *. revert D ix X. revert d. generalize dependent (shape a). intros shp F. induction F as [|ax s axes r E F IH]; intros d D ix X; [cbn in D; lia|].
    inversion X; subst. destruct d as [|d]; cbn [nth]; [assumption|]. apply IH; [cbn in D; lia|assumption]. }
  assert (T : 0 < total a).
  { unfold total. assert (G : at_ a ix0 <= rsum (map (at_ a) (indices (shape a)))); [|lra]. apply in_indices in X0.
    assert (H : forall l, In ix0 l -> (forall ix, In ix l -> 0 <= at_ a ix) -> at_ a ix0 <= rsum (map (at_ a) l)).
    { intros l. induction l as [|k l IH]; intros I' N; [contradiction|]. cbn [map rsum fold_right]. fold (rsum (map (at_ a) l)). destruct I' as [->|I'].
      - assert (0 <= rsum (map (at_ a) l)) by (rewrite <- (rsum_zero (fun _ => 0) l) by auto; apply rsum_le; intros y Y; apply N; now right). lra.
      - pose proof (N k (or_introl eq_refl)). assert (at_ a ix0 <= rsum (map (at_ a) l)) by (apply IH; [exact I'|intros y Y; apply N; now right]). lra. }
    apply H; [exact X0|]. intros ix I'. apply P. now apply in_indices. }
  assert (LO : u * total a <= msum a (fun ix => coord axes d ix ^ 1)).
  { unfold total, msum. rewrite <- rsum_lin. apply rsum_le. intros ix I'. apply in_indices in I'. pose proof (C ix I'). pose proof (P ix I'). rewrite pow_1. nra. }
  assert (HI : msum a (fun ix => coord axes d ix ^ 1) <= w * total a).
  { unfold total, msum. rewrite <- rsum_lin. apply rsum_le. intros ix I'. apply in_indices in I'. pose proof (C ix I'). pose proof (P ix I'). rewrite pow_1. nra. }
  assert (0 < / total a) by now apply Rinv_0_lt_compat.
  split; apply Rmult_le_reg_r with (total a); try assumption; unfold Rdiv; rewrite Rmult_assoc, Rinv_l by lra; lra.
Qed.
(** the array's unit does not matter when normalised; without, the moments are linear in the array *)
Definition scaled (c : R) (a : nd) : nd := Nd (shape a) (fun ix => c * at_ a ix).
Definition plus_nd (a b : nd) : nd := Nd (shape a) (fun ix => at_ a ix + at_ b ix).
Theorem C94_linear : forall a b axes ms, shape b = shape a -> fits axes a -> (forall l, ms = MSeq l -> List.length l = List.length (shape a)) ->
  (forall c, c <> 0 -> total a <> 0 -> moments (scaled c a) ms (Some axes) None true false = moments a ms (Some axes) None true false) /\
  (forall c, exists r s t, moments a ms (Some axes) None false false = Ok r /\ moments b ms (Some axes) None false false = Ok s /\
     moments (plus_nd (scaled c a) b) ms (Some axes) None false false = Ok t /\
     match r, s, t with MArray r, MArray s, MArray t => t = map2 (fun x y => c * x + y) r s | MValue r, MValue s, MValue t => t = c * r + s | _, _, _ => False end).
Proof.
  intros a b axes ms S F L.
  assert (Fs : forall c, fits axes (scaled c a)) by (intros; exact F). assert (Fb : fits axes b) by (unfold fits; now rewrite S). assert (Fp : forall c, fits axes (plus_nd (scaled c a) b)) by (intros; exact F).
  assert (MS : forall c p, msum (scaled c a) p = c * msum a p). { intros c p. unfold msum. rewrite <- rsum_lin. cbn [scaled shape at_]. apply rsum_map_ext. intros ix _. ring. }
  assert (TS : forall c, total (scaled c a) = c * total a). { intros c. unfold total. rewrite <- rsum_lin. reflexivity. }
  assert (MP : forall c p, msum (plus_nd (scaled c a) b) p = c * msum a p + msum b p). { intros c p. unfold msum. rewrite S, <- rsum_lin, <- rsum_plus. cbn [plus_nd scaled shape at_]. apply rsum_map_ext. intros ix _. ring. }
  split.
  - intros c C E. assert (Q : forall x, c * x / (c * total a) = x / total a) by (intros x; field; auto).
    destruct ms as [m|l].
    + rewrite !moments_scalar by auto. do 2 f_equal. cbn [scaled shape]. apply map_ext. intros d. fold (scaled c a). rewrite MS, TS. apply Q.
    + rewrite !moments_seq by (auto; cbn; now apply L). do 2 f_equal. cbn [scaled shape]. fold (scaled c a). rewrite MS, TS. apply Q.
  - intros c. destruct ms as [m|l].
    + rewrite !moments_scalar by auto. eexists _, _, _. split; [reflexivity|]. split; [reflexivity|]. split; [reflexivity|]. cbn [plus_nd scaled shape]. rewrite S. fold (scaled c a) (plus_nd (scaled c a) b).
      generalize (seq 0 (List.length (shape a))). intros q. induction q as [|d q IH]; [reflexivity|]. cbn [map]. unfold map2 in *. cbn [combine map fst snd]. rewrite IH. f_equal. rewrite MP. field.
    + rewrite !moments_seq by (auto; cbn; rewrite ?S; now apply L). eexists _, _, _. split; [reflexivity|]. split; [reflexivity|]. split; [reflexivity|]. cbn [plus_nd scaled shape]. rewrite S. fold (scaled c a) (plus_nd (scaled c a) b). rewrite MP. field.
Qed.
(** a single bright pixel: each moment is the product of the powers of its coordinates *)
Theorem C94_point : forall a axes l ix0, fits axes a -> List.length l = List.length (shape a) -> pixel a ix0 -> at_ a ix0 <> 0 -> (forall ix, pixel a ix -> ix <> ix0 -> at_ a ix = 0) ->
  moments a (MSeq l) (Some axes) None true false = Ok (MValue (fold_right Rmult 1 (map2 (fun m x => x ^ m) l (map2 (fun ax i => nth i ax 0) axes ix0)))).
Proof.
  intros a axes l ix0 F L X N Z. rewrite moments_seq by auto. do 2 f_equal.
  assert (T : total a = at_ a ix0). { unfold total. apply rsum_single; [apply nodup_indices|now apply in_indices|]. intros y Y. apply Z. now apply in_indices. }
  assert (M : forall p, msum a p = at_ a ix0 * p ix0). { intros p. unfold msum. apply (rsum_single (fun ix => at_ a ix * p ix)); [apply nodup_indices|now apply in_indices|]. intros y Y E. rewrite (Z y); [ring|now apply in_indices|exact E]. }
  rewrite M, T. unfold Rdiv. rewrite (Rmult_comm (at_ a ix0)), Rmult_assoc, Rinv_r by exact N. rewrite Rmult_1_r. unfold rprod. f_equal.
  clear - F L X. unfold fits, pixel in *. revert F L X. generalize (shape a). intros shp F. revert l ix0. induction F as [|ax s axes r E F IH]; intros l ix0 L X.
  - destruct l; [reflexivity|discriminate].
  - destruct l as [|m l]; [discriminate|]. inversion X as [|i s' ix r' Hi Hx]; subst. cbn [List.length seq]. unfold map2 in *. cbn [combine map fst snd coord nth]. f_equal.
    rewrite <- seq_shift. cbn [List.length] in L. injection L as L. rewrite <- (IH l ix L Hx). clear. generalize (seq 0 (List.length r)). intros q. revert q. induction l as [|m' l IHl]; intros [|d q]; cbn [combine map]; try reflexivity. f_equal. apply IHl.
Qed.

(** ** Other axes *)
Lemma coord_map2 (f : list R -> R -> list R) (g : R -> R -> R) axes cs a d ix : (forall ax c, f ax c = map (fun x => g c x) ax) -> fits axes a -> pixel a ix -> (d < List.length (shape a))%nat -> List.length cs = List.length axes ->
  coord (map2 f axes cs) d ix = g (nth d cs 0) (coord axes d ix).
Proof.
  intros H F X D L. unfold coord, fits, pixel in *. revert d D ix X cs L. generalize dependent (shape a). intros shp F. induction F as [|ax s axes r E F IH]; intros d D ix X cs L; [cbn in D; lia|].
  destruct cs as [|c cs]; [discriminate|]. inversion X as [|i s' ix' r' Hi Hx]; subst. unfold map2 in *. cbn [combine map fst snd]. destruct d as [|d]; cbn [nth].
  - rewrite H. rewrite nth_indep with (d' := g c 0) by (rewrite map_length; exact Hi). apply (map_nth (fun x => g c x)).
  - apply IH; [cbn in D; lia|exact Hx|cbn in L; lia].
Qed.
Lemma fits_map2 (f : list R -> R -> list R) axes cs a : (forall ax c, List.length (f ax c) = List.length ax) -> fits axes a -> List.length cs = List.length axes -> fits (map2 f axes cs) a.
Proof.
  intros H F L. unfold fits in *. revert cs L. induction F as [|ax s axes r E F IH]; intros cs L; destruct cs as [|c cs]; try discriminate; unfold map2; cbn [combine map fst snd]; constructor.
  - now rewrite H.
  - apply IH. cbn in L. lia.
Qed.
Lemma fits_length axes a : fits axes a -> List.length axes = List.length (shape a).
Proof. intros F. unfold fits in F. induction F; cbn; congruence. Qed.
Lemma map2_nth {A B C} (f : A -> B -> C) l k d (a : A) (b : B) (c : C) : (d < List.length l)%nat -> List.length k = List.length l -> nth d (map2 f l k) c = f (nth d l a) (nth d k b).
Proof.
  revert k d. induction l as [|x l IH]; intros [|y k] d D L; cbn in D, L; try lia. unfold map2 in *. cbn [combine map fst snd]. destruct d as [|d]; cbn [nth]; [reflexivity|]. apply IH; lia.
Qed.
Definition shift_axis (ax : list R) (c : R) : list R := map (fun x => x + c) ax.
Definition scale_axis (ax : list R) (k : R) : list R := map (fun x => k * x) ax.
(** moving the coordinates moves the centroid along; scaling the coordinates scales an m-th moment by the m-th power *)
Theorem C94_shift : forall a axes cs, fits axes a -> List.length cs = List.length axes -> total a <> 0 ->
  exists l, moments a (MScalar 1) (Some axes) None true false = Ok (MArray l) /\ moments a (MScalar 1) (Some (map2 shift_axis axes cs)) None true false = Ok (MArray (map2 Rplus l cs)).
Proof.
  intros a axes cs F L T. rewrite moments_scalar by exact F. eexists. split; [reflexivity|].
  rewrite moments_scalar by (apply fits_map2; [intros; apply map_length|exact F|exact L]). do 2 f_equal. pose proof (fits_length _ _ F) as N.
  apply nth_ext with (d := 0) (d' := 0); [unfold map2; rewrite !map_length, combine_length, map_length, seq_length; lia|].
  intros d D. rewrite map_length, seq_length in D. rewrite (map2_nth _ _ _ _ 0 0) by (rewrite ?map_length, ?seq_length; lia).
  assert (Q : forall f : nat -> R, nth d (map f (seq 0 (List.length (shape a)))) 0 = f d).
  { intros f. rewrite nth_indep with (d' := f 0%nat) by (rewrite map_length, seq_length; lia). rewrite (map_nth f), seq_nth by lia. reflexivity. }
  rewrite !Q. assert (M : msum a (fun ix => coord (map2 shift_axis axes cs) d ix ^ 1) = msum a (fun ix => coord axes d ix ^ 1) + nth d cs 0 * total a).
  { unfold msum, total. rewrite <- rsum_lin, <- rsum_plus. apply rsum_map_ext. intros ix X. apply in_indices in X. rewrite (coord_map2 _ (fun c x => x + c) _ _ a); try assumption; [ring|reflexivity]. }
  rewrite M. field. exact T.
Qed.
Theorem C94_scale : forall a axes ks m norm, fits axes a -> List.length ks = List.length axes ->
  exists l, moments a (MScalar m) (Some axes) None norm false = Ok (MArray l) /\ moments a (MScalar m) (Some (map2 scale_axis axes ks)) None norm false = Ok (MArray (map2 (fun x k => k ^ m * x) l ks)).
Proof.
  intros a axes ks m norm F L. rewrite moments_scalar by exact F. eexists. split; [reflexivity|].
  rewrite moments_scalar by (apply fits_map2; [intros; apply map_length|exact F|exact L]). do 2 f_equal. pose proof (fits_length _ _ F) as N.
  apply nth_ext with (d := 0) (d' := 0); [unfold map2; rewrite !map_length, combine_length, map_length, seq_length; lia|].
  intros d D. rewrite map_length, seq_length in D. rewrite (map2_nth _ _ _ _ 0 0) by (rewrite ?map_length, ?seq_length; lia).
  assert (Q : forall f : nat -> R, nth d (map f (seq 0 (List.length (shape a)))) 0 = f d).
  { intros f. rewrite nth_indep with (d' := f 0%nat) by (rewrite map_length, seq_length; lia). rewrite (map_nth f), seq_nth by lia. reflexivity. }
  rewrite !Q. assert (M : msum a (fun ix => coord (map2 scale_axis axes ks) d ix ^ m) = nth d ks 0 ^ m * msum a (fun ix => coord axes d ix ^ m)).
  { unfold msum. rewrite <- rsum_lin. apply rsum_map_ext. intros ix X. apply in_indices in X. rewrite (coord_map2 _ (fun c x => c * x) _ _ a); try assumption; [|reflexivity]. rewrite Rpow_mult_distr. ring. }
  rewrite M. unfold Rdiv. ring.
Qed.

(** ** One order per axis *)
(** order m along one axis and 0 along the others is the entry of the scalar form; all orders zero is the total *)
Lemma rprod_zero (f : nat -> R) shp k : rprod (map2 (fun m d => f d ^ m) (repeat 0%nat k) shp) = 1.
Proof. revert shp. induction k as [|k IH]; intros [|s shp]; try reflexivity. unfold map2, rprod in *. cbn [repeat combine map fold_right fst snd]. rewrite IH. cbn [pow]. ring. Qed.
Theorem C94_component : forall a axes m d norm, fits axes a -> (d < List.length (shape a))%nat ->
  exists l, moments a (MScalar m) (Some axes) None norm false = Ok (MArray l) /\ moments a (MSeq (repeat 0%nat d ++ m :: repeat 0%nat (List.length (shape a) - d - 1))) (Some axes) None norm false = Ok (MValue (nth d l 0)).
Proof.
  intros a axes m d norm F D. rewrite moments_scalar by exact F. eexists. split; [reflexivity|]. rewrite moments_seq; [|exact F|rewrite app_length; cbn [List.length]; rewrite !repeat_length; lia]. do 2 f_equal.
  rewrite nth_indep with (d' := (fun d => msum a (fun ix => coord axes d ix ^ m) / (if norm then total a else 1)) 0%nat) by (rewrite map_length, seq_length; exact D).
  rewrite (map_nth (fun d => msum a (fun ix => coord axes d ix ^ m) / (if norm then total a else 1))), seq_nth by exact D. cbn [Nat.add]. f_equal.
  unfold msum. apply rsum_map_ext. intros ix _. f_equal.
  generalize (coord axes). intros f. assert (G : forall b n, (d < n)%nat -> rprod (map2 (fun m d => f d ix ^ m) (repeat 0%nat d ++ m :: repeat 0%nat (n - d - 1)) (seq b n)) = f (b + d)%nat ix ^ m); [|apply (G 0%nat _ D)].
  clear. induction d as [|d IH]; intros b n D; destruct n as [|n]; try lia.
  - unfold map2. cbn [repeat app seq combine map fst snd]. unfold rprod. cbn [fold_right]. fold (rprod (map (fun p => f (snd p) ix ^ fst p) (combine (repeat 0%nat (S n - 0 - 1)) (seq (S b) n)))).
    pose proof (rprod_zero (fun d => f d ix) (seq (S b) n) (S n - 0 - 1)) as Z. unfold map2 in Z. rewrite Z. rewrite Nat.add_0_r. ring.
  - unfold map2 in *. cbn [repeat app seq combine map fst snd]. unfold rprod in *. cbn [fold_right]. replace (S n - S d - 1)%nat with (n - d - 1)%nat by lia. rewrite IH by lia. replace (S b + d)%nat with (b + S d)%nat by lia. cbn [pow]. ring.
Qed.
Theorem C94_zeroth : forall a axes, fits axes a ->
  moments a (MSeq (repeat 0%nat (List.length (shape a)))) (Some axes) None false false = Ok (MValue (total a)) /\
  (total a <> 0 -> moments a (MSeq (repeat 0%nat (List.length (shape a)))) (Some axes) None true false = Ok (MValue 1)).
Proof.
  intros a axes F. assert (M : msum a (fun ix => rprod (map2 (fun m d => coord axes d ix ^ m) (repeat 0%nat (List.length (shape a))) (seq 0 (List.length (shape a))))) = total a).
  { unfold msum, total. apply rsum_map_ext. intros ix _. rewrite (rprod_zero (fun d => coord axes d ix)). ring. }
  split; [|intros T]; rewrite moments_seq by (rewrite ?repeat_length; auto); rewrite M; do 2 f_equal; field; try exact T.
Qed.
(** a separable array: the moment is the product of the moments of the factors *)
Fixpoint separable (fs : list (nat -> R)) (ix : list nat) : R := match fs, ix with f :: fs, i :: ix => f i * separable fs ix | _, _ => 1 end.
Definition sum1 (s : nat) (f : nat -> R) (ax : list R) (m : nat) : R := rsum (map (fun i => f i * nth i ax 0 ^ m) (seq 0 s)).
Fixpoint prod1 (shp : list nat) (fs : list (nat -> R)) (axes : list (list R)) (l : list nat) : R :=
  match shp, fs, axes, l with s :: shp, f :: fs, ax :: axes, m :: l => sum1 s f ax m * prod1 shp fs axes l | _, _, _, _ => 1 end.
Theorem C94_separable : forall a axes fs l, fits axes a -> List.length fs = List.length (shape a) -> List.length l = List.length (shape a) -> (forall ix, pixel a ix -> at_ a ix = separable fs ix) ->
  moments a (MSeq l) (Some axes) None false false = Ok (MValue (prod1 (shape a) fs axes l)).
Proof.
  intros a axes fs l F LF LL S. rewrite moments_seq by auto. do 2 f_equal. rewrite Rdiv_1_r || (unfold Rdiv; rewrite Rinv_1, Rmult_1_r). unfold msum.
  rewrite (rsum_map_ext _ (fun ix => separable fs ix * rprod (map2 (fun m d => coord axes d ix ^ m) l (seq 0 (List.length (shape a)))))) by (intros ix X; apply in_indices in X; now rewrite S).
  clear S. unfold fits in F. revert fs l LF LL F. revert axes. induction (shape a) as [|s r IH]; intros axes fs l LF LL F.
  - cbn [indices map]. destruct fs; [|discriminate]. destruct l; [|discriminate]. inversion F; subst. cbn. ring.
  - destruct fs as [|f fs]; [discriminate|]. destruct l as [|m l]; [discriminate|]. inversion F as [|ax s' axes' r' E F']; subst. cbn [indices]. rewrite rsum_flat. cbn [prod1].
    rewrite <- (IH axes' fs l) by (cbn in LF, LL; auto; lia). unfold sum1. rewrite Rmult_comm, <- rsum_lin. apply rsum_map_ext' || f_equal. apply map_ext. intros i. rewrite map_map.
    rewrite (Rmult_comm (rsum _) _), <- rsum_lin. f_equal. apply map_ext. intros ix. cbn [separable List.length seq]. unfold map2, rprod. cbn [combine map fst snd fold_right]. unfold coord at 1. cbn [nth].
    replace (map (fun p => coord (ax :: axes') (snd p) (i :: ix) ^ fst p) (combine l (seq 1 (List.length r)))) with (map (fun p => coord axes' (snd p) ix ^ fst p) (combine l (seq 0 (List.length r)))); [ring|].
    rewrite <- seq_shift. clear. generalize (seq 0 (List.length r)). intros q. revert q. induction l as [|m' l IHl]; intros [|d q]; cbn [combine map]; try reflexivity. f_equal. apply IHl.
Qed.

(** ** Standardised moments *)
Lemma moments_std1 a m ax : shape a = [List.length ax] ->
  moments a (MScalar m) (Some [ax]) None true true = Ok (MArray [msum a (fun ix => coord [ax] 0 ix ^ m) / stdev ax ^ m / total a]).
Proof. intros S. unfold moments. rewrite S. cbn [List.length combine forallb fst snd Nat.eqb andb]. rewrite Nat.eqb_refl. cbn [andb seq map]. unfold map2, msum. rewrite S. reflexivity. Qed.
Lemma indices1 n : indices [n] = map (fun i => [i]) (seq 0 n).
Proof. cbn [indices]. induction (seq 0 n) as [|i l IH]; [reflexivity|]. cbn [flat_map map app] in *. now rewrite IH. Qed.
Lemma map_nth_seq (ax : list R) : map (fun i => nth i ax 0) (seq 0 (List.length ax)) = ax.
Proof. induction ax as [|x ax IH]; [reflexivity|]. cbn [List.length seq map nth]. rewrite <- seq_shift, map_map. f_equal. exact IH. Qed.
(** on a uniform array about the middle of its axis the standardised second moment is 1 *)
Theorem C94_std_uniform : forall a ax c mu v, shape a = [List.length ax] -> ax <> [] -> c <> 0 -> (forall ix, pixel a ix -> at_ a ix = c) ->
  mu * INR (List.length ax) = fold_right Rplus 0 ax -> v * INR (List.length ax) = fold_right Rplus 0 (map (fun x => (x - mu) * (x - mu)) ax) -> 0 < v ->
  moments a (MScalar 2) (Some [ax]) None true true = Ok (MArray [1 + mu * mu / v]).
Proof.
  intros a ax c mu v S N C U M V P. rewrite moments_std1 by exact S. do 3 f_equal. fold (rsum ax) in M. fold (rsum (map (fun x => (x - mu) * (x - mu)) ax)) in V.
  assert (L : INR (List.length ax) <> 0) by (apply not_0_INR; destruct ax; [congruence|discriminate]).
  assert (SD : stdev ax ^ 2 = v).
  { unfold stdev. destruct (var_mean ax N) as (m' & v' & Em & Ev & E1 & E2). rewrite Ev. rewrite mean_some in Em by exact N. injection Em as <-. unfold rlen in *.
    assert (Q : rsum ax / INR (List.length ax) = mu) by (rewrite <- M; field; exact L). rewrite Q in E1. assert (v' = v) by (apply Rmult_eq_reg_r with (INR (List.length ax)); [congruence|exact L]). subst v'. replace (sqrt v ^ 2) with (sqrt v * sqrt v) by ring. now apply sqrt_sqrt. }
  rewrite SD. assert (T : total a = c * INR (List.length ax)).
  { unfold total. rewrite (rsum_map_ext _ (fun _ => c * 1)) by (intros ix X; apply in_indices in X; rewrite U; [ring|exact X]). rewrite rsum_lin, S, indices1, map_map. f_equal. rewrite <- (seq_length (List.length ax) 0) at 2. induction (seq 0 (List.length ax)) as [|i l IH]; [reflexivity|]. cbn [map rsum fold_right]. cbn [List.length]. rewrite S_INR, <- IH. unfold rsum. ring. }
  assert (MS : msum a (fun ix => coord [ax] 0 ix ^ 2) = c * (v * INR (List.length ax) + mu * mu * INR (List.length ax))).
  { unfold msum. rewrite (rsum_map_ext _ (fun ix => c * coord [ax] 0 ix ^ 2)) by (intros ix X; apply in_indices in X; rewrite U; [ring|exact X]). rewrite rsum_lin, S, indices1, map_map. f_equal.
    unfold coord. cbn [nth]. rewrite <- (map_map (fun i => nth i ax 0) (fun x => x ^ 2)), map_nth_seq. rewrite V. clear - M. 
    assert (G : forall l, rsum (map (fun x => x ^ 2) l) = rsum (map (fun x => (x - mu) * (x - mu)) l) + 2 * mu * rsum l - mu * mu * INR (List.length l)).
    { intros l. induction l as [|x l IH]; [cbn; ring|]. cbn [map rsum fold_right]. unfold rsum in IH. rewrite IH. cbn [List.length]. rewrite S_INR. unfold rsum. ring. }
    rewrite G, <- M. ring. }
  rewrite T, MS. field. repeat split; try assumption. lra.
Qed.
(** but otherwise the deviation of the axis is used and not that of the distribution: three pixels 1, 2, 1 at -1, 0, 1 have centroid 0 and
    variance 1/2, and the standardised second moment is 3/4 instead of 1 *)
Theorem C94_std_refuted : exists a axes, fits axes a /\ moments a (MScalar 1) (Some axes) None true false = Ok (MArray [0]) /\
  moments a (MScalar 2) (Some axes) None true false = Ok (MArray [1 / 2]) /\ moments a (MScalar 2) (Some axes) None true true = Ok (MArray [3 / 4]).
Proof.
  exists (Nd [3%nat] (fun ix => nth (nth 0 ix 0%nat) [1; 2; 1] 0)), [[- (1); 0; 1]].
  assert (F : fits [[- (1); 0; 1]] (Nd [3%nat] (fun ix => nth (nth 0 ix 0%nat) [1; 2; 1] 0))) by (repeat constructor). split; [exact F|].
  assert (T : total (Nd [3%nat] (fun ix => nth (nth 0 ix 0%nat) [1; 2; 1] 0)) = 4) by (unfold total; cbn [shape indices seq flat_map map app at_ nth rsum fold_right]; ring).
  assert (M : forall k, msum (Nd [3%nat] (fun ix => nth (nth 0 ix 0%nat) [1; 2; 1] 0)) (fun ix => coord [[- (1); 0; 1]] 0 ix ^ k) = (- (1)) ^ k + 2 * 0 ^ k + 1 ^ k).
  { intros k. unfold msum, coord. cbn [shape indices seq flat_map map app at_ nth rsum fold_right]. ring. }
  split; [|split].
  - rewrite moments_scalar by exact F. cbn [shape List.length seq map]. rewrite M, T. do 3 f_equal. field.
  - rewrite moments_scalar by exact F. cbn [shape List.length seq map]. rewrite M, T. do 3 f_equal. field.
  - rewrite moments_std1 by reflexivity. rewrite M, T. do 3 f_equal. assert (SD : stdev [- (1); 0; 1] ^ 2 = 2 / 3).
    { unfold stdev, var, mean, rsum, rlen. cbn [map fold_right List.length]. match goal with |- sqrt ?x ^ 2 = _ => replace x with (2 / 3) by (rewrite ?S_INR; cbn [INR]; field) end. replace (sqrt (2/3) ^ 2) with (sqrt (2/3) * sqrt (2/3)) by ring. apply sqrt_sqrt. lra. }
    rewrite SD. field.
Qed.
(** a scalar background is the moment of the array minus that value *)
Theorem C94_background : forall a ms axes b norm std, moments a ms axes (Some b) norm std = moments (Nd (shape a) (fun ix => at_ a ix - b)) ms axes None norm std.
Proof. reflexivity. Qed.
Example C94_ex : let a := Nd [2%nat; 3%nat] (fun ix => match ix with [1; 2]%nat => 3 | [0; 1]%nat => 1 | _ => 0 end) in
  fits [[0; 1]; [10; 11; 12]] a /\ total a <> 0 /\ moments a (MScalar 1) (Some [[0; 1]; [10; 11; 12]]) None true false = Ok (MArray [3 / 4; 47 / 4]) /\
  moments a (MSeq [1; 1]%nat) (Some [[0; 1]; [10; 11; 12]]) None true false = Ok (MValue 9).
Proof.
  intros a. assert (F : fits [[0; 1]; [10; 11; 12]] a) by (repeat constructor). assert (T : total a = 4) by (unfold total, a; cbn [shape indices seq flat_map map app at_ rsum fold_right]; ring).
  split; [exact F|]. split; [rewrite T; lra|]. split.
  - rewrite moments_scalar by exact F. rewrite T. unfold a. cbn [shape List.length seq map]. do 3 f_equal; [|f_equal]; unfold msum, coord; cbn [shape indices seq flat_map map app at_ nth rsum fold_right]; field.
  - rewrite moments_seq by (auto; reflexivity). rewrite T. unfold a. cbn [shape List.length seq]. do 2 f_equal. unfold msum, coord, map2, rprod; cbn [shape indices seq flat_map map app at_ nth rsum fold_right combine fst snd]; field.
Qed.
