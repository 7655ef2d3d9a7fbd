(** * AlgProps: C25 (nearestsorted), C26 (crossmask), C35 (lin_to_log_rescale) *)
From Coq Require Import Reals ZArith List Bool Arith Lia Lra Sorted Permutation.
From Verif Require Import PyBase AlgModel.
Import ListNotations.
Open Scope R_scope.

(** ** C25 *)
Lemma ss_spec a v : Sorted Rle a -> let i := searchsorted a v in (i <= length a)%nat /\
  (forall k x, nth_error a k = Some x -> (k < i)%nat -> x < v) /\ (forall k x, nth_error a k = Some x -> (i <= k)%nat -> v <= x).
Proof.
  intros H. apply Sorted_StronglySorted in H; [|intros x y z; lra]. induction H as [|x a Ha IH Hx]; cbn [searchsorted]; cbv zeta.
  - split; [cbn; lia|]. split; intros [|k] x; discriminate.
  - rewrite Forall_forall in Hx. destruct (Rlt_dec x v) as [L|L].
    + destruct IH as (A & B & C). split; [cbn; lia|]. split; intros [|k] y; cbn; intros E Hk; [injection E as <-; auto|apply (B k); auto; lia|lia|apply (C k); auto; lia].
    + split; [cbn; lia|]. split; intros [|k] y; cbn; intros E Hk; [lia|lia|injection E as <-; lra|]. apply nth_error_In, Hx in E. lra.
Qed.
Lemma nth_error_mono a i j x y : Sorted Rle a -> (i <= j)%nat -> nth_error a i = Some x -> nth_error a j = Some y -> x <= y.
Proof.
  intros H. apply Sorted_StronglySorted in H; [|intros u v w; lra]. revert i j. induction H as [|z a Ha IH Hx]; intros i j L Ei Ej; [destruct i; discriminate|].
  rewrite Forall_forall in Hx. destruct i as [|i], j as [|j]; cbn in *; try lia.
  - injection Ei as ->. injection Ej as ->. lra.
  - injection Ei as ->. apply Hx. eapply nth_error_In; eauto.
  - apply (IH i j); auto. lia.
Qed.
(** For a nonempty sorted array the answer is an element, at the returned index, none is closer to the value,
    and of two equally close elements the larger one is returned. *)
Theorem C25_nearest : forall a v, a <> [] -> Sorted Rle a -> exists x i, nearest1 a v = Ok (x, i) /\ nth_error a i = Some x /\
  (forall y, In y a -> Rabs (x - v) <= Rabs (y - v)) /\ (forall y, In y a -> Rabs (y - v) = Rabs (x - v) -> y <= x).
Proof.
  intros a v Hn Hs. destruct (ss_spec a v Hs) as (Hi & Hb & Ha). unfold nearest1. set (i := searchsorted a v) in *. clearbody i.
  assert (forall k, (k < length a)%nat -> exists x, nth_error a k = Some x) as Ex.
  { intros k Hk. destruct (nth_error a k) eqn:E; [eauto|]. apply nth_error_None in E. lia. }
  assert (length a > 0)%nat as Hl by (destruct a; [congruence|cbn; lia]).
  destruct (Nat.leb_spec (length a) i) as [L|L].
  - (* above all *)
    assert (i = length a) as -> by lia. destruct (Ex (length a - 1)%nat ltac:(lia)) as (x & E).
    replace (Z.of_nat (length a) - 1)%Z with (Z.of_nat (length a - 1)) by lia. rewrite py_get_nat, E.
    assert (forall y, In y a -> y <= x) as Mx.
    { intros y Hy. apply In_nth_error in Hy. destruct Hy as (k & Ek). assert (k < length a)%nat by (apply nth_error_Some; congruence). apply (nth_error_mono a k (length a - 1) y x); auto. lia. }
    assert (exists am, py_get a (Z.of_nat (length a - 1) - 1) = Some am /\ In am a) as (am & Em & Im).
    { unfold py_get, py_index. destruct (0 <=? Z.of_nat (length a - 1) - 1)%Z eqn:Q.
      - apply Z.leb_le in Q. destruct (Z.ltb_spec (Z.of_nat (length a - 1) - 1) (Z.of_nat (length a))); [|lia]. destruct (Ex (Z.to_nat (Z.of_nat (length a - 1) - 1)) ltac:(lia)) as (y & Ey). rewrite Ey. eauto using nth_error_In.
      - apply Z.leb_gt in Q. destruct (Z.leb_spec 0 (Z.of_nat (length a - 1) - 1 + Z.of_nat (length a))); [|lia]. destruct (Ex (Z.to_nat (Z.of_nat (length a - 1) - 1 + Z.of_nat (length a))) ltac:(lia)) as (y & Ey). rewrite Ey. eauto using nth_error_In. }
    rewrite Em. assert (forall y, In y a -> y < v) as Bl.
    { intros y Hy. apply In_nth_error in Hy. destruct Hy as (k & Ek). apply (Hb k); auto. apply nth_error_Some. congruence. }
    pose proof (nth_error_In _ _ E) as Ix. destruct (Rlt_dec (Rabs (am - v)) (Rabs (x - v))) as [Q|Q].
    { exfalso. pose proof (Bl _ Im). pose proof (Bl _ Ix). pose proof (Mx _ Im). rewrite !Rabs_left in Q by lra. lra. }
    rewrite py_get_nat, E. exists x, (length a - 1)%nat. rewrite Nat2Z.id. repeat split; auto.
    intros y Hy. pose proof (Bl _ Hy). pose proof (Bl _ Ix). pose proof (Mx _ Hy). rewrite !Rabs_left by lra. lra.
  - destruct (Ex i L) as (ai & Ei). rewrite py_get_nat, Ei. destruct i as [|i].
    + (* below all *) assert (exists am, py_get a (Z.of_nat 0 - 1) = Some am /\ In am a) as (am & Em & Im).
      { unfold py_get, py_index. change (Z.of_nat 0 - 1)%Z with (-1)%Z. cbn [Z.leb Z.compare]. destruct (Z.leb_spec 0 (-1 + Z.of_nat (length a))); [|lia]. destruct (Ex (Z.to_nat (-1 + Z.of_nat (length a))) ltac:(lia)) as (y & Ey). rewrite Ey. eauto using nth_error_In. }
      rewrite Em. assert (forall y, In y a -> v <= ai <= y) as Ab.
      { intros y Hy. split; [apply (Ha 0%nat); auto|]. apply In_nth_error in Hy. destruct Hy as (k & Ek). apply (nth_error_mono a 0 k); auto. lia. }
      pose proof (Ab _ Im). destruct (Rlt_dec (Rabs (am - v)) (Rabs (ai - v))) as [Q|Q]; [rewrite !Rabs_right in Q by lra; lra|].
      rewrite py_get_nat, Ei. exists ai, 0%nat. repeat split; auto; intros y Hy.
      * pose proof (Ab _ Hy). rewrite !Rabs_right by lra. lra.
      * pose proof (Ab _ Hy). rewrite !Rabs_right by lra. lra.
    + replace (Z.of_nat (S i) - 1)%Z with (Z.of_nat i) by lia. destruct (Ex i ltac:(lia)) as (am & Em). rewrite py_get_nat, Em.
      assert (forall y, In y a -> y <= am \/ ai <= y) as Sp.
      { intros y Hy. apply In_nth_error in Hy. destruct Hy as (k & Ek). destruct (le_lt_dec k i); [left|right]; eapply nth_error_mono; eauto; lia. }
      pose proof (Hb i am Em ltac:(lia)) as Lm. pose proof (Ha (S i) ai Ei ltac:(lia)) as Li.
      rewrite (Rabs_left (am - v)), (Rabs_right (ai - v)) by lra. destruct (Rlt_dec (- (am - v)) (ai - v)) as [Q|Q]; rewrite py_get_nat, ?Em, ?Ei, Nat2Z.id.
      * exists am, i. repeat split; auto; intros y Hy; destruct (Sp y Hy); rewrite (Rabs_left (am - v)) by lra; [rewrite Rabs_left|rewrite Rabs_right|rewrite Rabs_left|rewrite Rabs_right]; lra.
      * exists ai, (S i). repeat split; auto; intros y Hy; destruct (Sp y Hy); rewrite (Rabs_right (ai - v)) by lra; [rewrite Rabs_left|rewrite Rabs_right|rewrite Rabs_left|rewrite Rabs_right]; lra.
Qed.
Print Assumptions C25_nearest.
(** An array of values is searched element by element; an empty array raises IndexError. *)
Theorem C25_arrays : forall a vs, (a <> [] -> Sorted Rle a -> exists l, nearest a vs = Ok l) /\
  (forall l, nearest a vs = Ok l -> Forall2 (fun v p => nearest1 a v = Ok p) vs l) /\ (forall v, nearest1 [] v = Raise IndexError).
Proof.
  intros a vs. split; [|split].
  - intros Hn Hs. induction vs as [|v vs (l & IH)]; cbn; [eauto|]. destruct (C25_nearest a v Hn Hs) as (x & i & -> & _). rewrite IH. eauto.
  - induction vs as [|v vs IH]; cbn; intros l E; [injection E as <-; constructor|]. destruct (nearest1 a v) as [p| |] eqn:P; try discriminate.
    destruct (nearest a vs) as [k| |]; try discriminate. injection E as <-. constructor; auto.
  - intros v. reflexivity.
Qed.
Print Assumptions C25_arrays.
Example C25_ex : Sorted Rle [1; 2; 4] /\ nearest1 [1; 2; 4] 3 = Ok (4, 2%nat) /\ nearest1 [1; 2; 4] (5/2) = Ok (2, 1%nat).
Proof.
  split; [repeat constructor; lra|]. unfold nearest1, searchsorted.
  split.
  - destruct (Rlt_dec 1 3); [|lra]. destruct (Rlt_dec 2 3); [|lra]. destruct (Rlt_dec 4 3); [lra|]. cbn.
    change (Pos.to_nat 2) with 2%nat. change (Pos.to_nat 1) with 1%nat. cbn [nth_error].
    destruct (Rlt_dec (Rabs (2 - 3)) (Rabs (4 - 3))) as [Q|Q]; [|reflexivity]. exfalso. revert Q. unfold Rabs; repeat destruct (Rcase_abs _); lra.
  - destruct (Rlt_dec 1 (5/2)); [|lra]. destruct (Rlt_dec 2 (5/2)); [|lra]. destruct (Rlt_dec 4 (5/2)); [lra|]. cbn.
    change (Pos.to_nat 2) with 2%nat. change (Pos.to_nat 1) with 1%nat. cbn [nth_error].
    destruct (Rlt_dec (Rabs (2 - 5/2)) (Rabs (4 - 5/2))) as [Q|Q]; [reflexivity|]. exfalso. apply Q. unfold Rabs; repeat destruct (Rcase_abs _); lra.
Qed.
(** In an array that is not sorted the nearest element can be missed. *)
Theorem C25_unsorted_refuted : exists a v x i, nearest1 a v = Ok (x, i) /\ exists y, In y a /\ Rabs (y - v) < Rabs (x - v).
Proof.
  exists [5; 0; 9], 0, 5, 0%nat. split.
  - unfold nearest1, searchsorted. destruct (Rlt_dec 5 0); [lra|]. cbn. change (Pos.to_nat 2) with 2%nat. cbn [nth_error]. destruct (Rlt_dec (Rabs (9 - 0)) (Rabs (5 - 0))) as [Q|Q]; [|reflexivity].
    exfalso. revert Q. unfold Rabs; repeat destruct (Rcase_abs _); lra.
  - exists 0. split; [cbn; auto|]. unfold Rabs; repeat destruct (Rcase_abs _); lra.
Qed.

(** ** C26 *)
Lemma roll1_nth {A} (l : list A) k : nth_error (roll1 l) k = match k with O => nth_error l (length l - 1) | S j => if (S j <? length l)%nat then nth_error l j else None end.
Proof.
  unfold roll1. destruct l as [|a l] using rev_ind; [destruct k; [reflexivity|destruct k; reflexivity]|]. clear IHl. rewrite rev_app_distr. cbn [rev app]. rewrite rev_involutive, app_length. cbn [length].
  destruct k as [|k]; cbn [nth_error].
  - rewrite nth_error_app2 by lia. replace (length l + 1 - 1 - length l)%nat with 0%nat by lia. reflexivity.
  - destruct (Nat.ltb_spec (S k) (length l + 1)).
    + rewrite nth_error_app1 by lia. reflexivity.
    + apply nth_error_None. lia.
Qed.
Lemma roll1_length {A} (l : list A) : length (roll1 l) = length l.
Proof.
  unfold roll1. destruct l as [|a l] using rev_ind; [reflexivity|]. rewrite rev_app_distr. cbn. rewrite rev_involutive, app_length. cbn. lia.
Qed.
Lemma map2_nth {A B C} (f : A -> B -> C) l k n : nth_error (map2 f l k) n = match nth_error l n, nth_error k n with Some a, Some b => Some (f a b) | _, _ => None end.
Proof.
  unfold map2. revert k n. induction l as [|a l IH]; intros [|b k] [|n]; cbn; auto. - now destruct (nth_error l n).
Qed.
Lemma map2_length {A B C} (f : A -> B -> C) l k : length (map2 f l k) = Nat.min (length l) (length k).
Proof. unfold map2. rewrite map_length. apply combine_length. Qed.
(** a crossing at k: below the threshold at k-1 and not below at k (above / not above for falling data) *)
Definition crossing (x : list R) (t : R) (up : bool) (k : nat) : Prop :=
  exists j u v, k = S j /\ nth_error x j = Some u /\ nth_error x k = Some v /\ (if up then u < t <= v else v <= t < u).
(** The mask has the length of the (flattened) input and is True exactly at the crossings. *)
Theorem C26_crossings : forall x t up, x <> [] -> exists m, crossmask x t up = Ok m /\ length m = length x /\
  forall k, nth_error m k = Some true <-> crossing x t up k.
Proof.
  intros x t up Hn. unfold crossmask. set (a := map _ x). set (b := map (fun v => if up then Rleb t v else Rleb v t) x).
  assert (length (map2 andb (roll1 a) b) = length x) as L by (unfold a, b; rewrite map2_length, roll1_length, !map_length; lia).
  destruct (map2 andb (roll1 a) b) as [|h m] eqn:E; [destruct x; [congruence|discriminate]|].
  exists (false :: m). split; [reflexivity|]. split; [exact L|]. intros k. destruct k as [|k].
  - cbn. split; [discriminate|]. intros (j & u & v & H & _). discriminate.
  - assert (nth_error (false :: m) (S k) = nth_error (map2 andb (roll1 a) b) (S k)) as -> by now rewrite E.
    rewrite map2_nth, roll1_nth. unfold a, b. rewrite map_length, !nth_error_map. destruct (Nat.ltb_spec (S k) (length x)) as [Lk|Lk].
    2: { split; [discriminate|]. intros (j & u & v & _ & _ & H & _). apply nth_error_None in Lk. congruence. }
    destruct (nth_error x k) as [u|] eqn:Eu; [|apply nth_error_None in Eu; lia]. destruct (nth_error x (S k)) as [v|] eqn:Ev; [|apply nth_error_None in Ev; lia].
    cbn [option_map]. unfold Rltb, Rleb, crossing. split.
    + intros Q. injection Q as Q. exists k, u, v. repeat split; auto. destruct up; repeat destruct (Rlt_dec _ _); repeat destruct (Rle_dec _ _); try discriminate; lra.
    + intros (j & u' & v' & J & Eu' & Ev' & Q). injection J as <-. assert (u' = u) as -> by congruence. assert (v' = v) as -> by congruence. f_equal.
      destruct up; repeat destruct (Rlt_dec _ _); repeat destruct (Rle_dec _ _); try lra; reflexivity.
Qed.
Print Assumptions C26_crossings.
(** Whenever the data are somewhere below and later not below, a crossing is marked in between. *)
Theorem C26_found : forall x t i j u v, (i < j)%nat -> nth_error x i = Some u -> nth_error x j = Some v -> u < t <= v ->
  exists m k, crossmask x t true = Ok m /\ (i < k <= j)%nat /\ nth_error m k = Some true.
Proof.
  intros x t i j u v L Eu Ev H. assert (x <> []) as Hn by (intros ->; destruct i; discriminate).
  destruct (C26_crossings x t true Hn) as (m & E & _ & Hm). exists m.
  assert (exists k, (i < k <= j)%nat /\ crossing x t true k) as (k & Hk & C).
  { clear Hm E. revert v Ev H. induction j as [|j IH]; [lia|]. intros v Ev H. destruct (nth_error x j) as [w|] eqn:Ew.
    2: { apply nth_error_None in Ew. assert (S j < length x)%nat by (apply nth_error_Some; congruence). lia. }
    destruct (Rlt_dec w t) as [Q|Q].
    - exists (S j). split; [lia|]. exists j, w, v. repeat split; auto; lra.
    - destruct (Nat.eq_dec i j) as [->|]; [exfalso; assert (w = u) by congruence; lra|]. destruct (IH ltac:(lia) w eq_refl ltac:(lra)) as (k & Hk & C). exists k. split; [lia|auto]. }
  exists k. split; [auto|]. split; [auto|]. now apply Hm.
Qed.
Print Assumptions C26_found.
(** Falling crossings are the rising ones of the negated data; shifting or scaling data and threshold changes nothing. *)
Theorem C26_symmetry : forall x t up a b, 0 < a ->
  crossmask (map Ropp x) (- t) up = crossmask x t (negb up) /\ crossmask (map (fun v => a * v + b) x) (a * t + b) up = crossmask x t up.
Proof.
  intros x t up a b Ha. unfold crossmask. rewrite !map_map. split.
  - match goal with |- context[roll1 (map ?f x)] => match goal with |- _ = match map2 andb (roll1 (map ?g x)) (map ?h x) with _ => _ end => 
      rewrite (map_ext f g) end end.
    + erewrite (map_ext (fun v => if up then Rleb (- t) (- v) else Rleb (- v) (- t))); [reflexivity|].
      intros v. unfold Rleb. destruct up; cbn; repeat destruct (Rle_dec _ _); try lra; reflexivity.
    + intros v. unfold Rltb. destruct up; cbn; repeat destruct (Rlt_dec _ _); try lra; reflexivity.
  - rewrite (map_ext (fun v => if up then Rltb (a * v + b) (a * t + b) else Rltb (a * t + b) (a * v + b)) (fun v => if up then Rltb v t else Rltb t v)).
    + erewrite (map_ext (fun v => if up then Rleb (a * t + b) (a * v + b) else Rleb (a * v + b) (a * t + b))); [reflexivity|].
      intros v. unfold Rleb. destruct up; cbn; repeat destruct (Rle_dec _ _); try reflexivity; exfalso; nra.
    + intros v. unfold Rltb. destruct up; cbn; repeat destruct (Rlt_dec _ _); try reflexivity; exfalso; nra.
Qed.
Print Assumptions C26_symmetry.
Example C26_ex : exists m, crossmask [-2; -1; 0; 1] 0 true = Ok m /\ nth_error m 2 = Some true.
Proof.
  destruct (C26_crossings [-2; -1; 0; 1] 0 true ltac:(discriminate)) as (m & E & _ & H). exists m. split; [auto|]. apply H. exists 1%nat, (-1), 0. cbn. repeat split; auto; lra.
Qed.
(** Rising and falling crossings need not alternate: data that only touch the threshold from below rise twice without falling; empty input raises IndexError. *)
Theorem C26_alternation_refuted : let x := [-1; 0; -1; 0] in
  (exists m, crossmask x 0 true = Ok m /\ nth_error m 1 = Some true /\ nth_error m 3 = Some true) /\
  (exists m, crossmask x 0 false = Ok m /\ forall k, nth_error m k <> Some true) /\ crossmask [] 0 true = Raise IndexError.
Proof.
  cbv zeta. split; [|split; [|reflexivity]].
  - destruct (C26_crossings [-1; 0; -1; 0] 0 true ltac:(discriminate)) as (m & E & _ & H). exists m. split; [auto|]. split; apply H; [exists 0%nat|exists 2%nat]; exists (-1), 0; cbn; repeat split; auto; lra.
  - destruct (C26_crossings [-1; 0; -1; 0] 0 false ltac:(discriminate)) as (m & E & _ & H). exists m. split; [auto|]. intros k Hk. apply H in Hk. destruct Hk as (j & u & v & -> & Eu & Ev & Q).
    destruct j as [|[|[|[|j]]]]; cbn in *; try (injection Eu as <-; injection Ev as <-; lra); try discriminate.
Qed.

(** ** C35 *)
Lemma rmin_spec l : l <> [] -> In (rmin l) l /\ forall x, In x l -> rmin l <= x.
Proof.
  unfold rmin. intros Hn. destruct l as [|h l]; [congruence|]. cbn [hd]. set (f := fold_right Rmin h). assert (forall k, (f k = h \/ In (f k) k) /\ (forall x, In x k -> f k <= x) /\ f k <= h) as K.
  { induction k as [|y k (A & B & C)]; cbn; [split; [auto|split; [tauto|lra]]|]. fold f. split; [|split].
    - unfold Rmin. destruct (Rle_dec y (f k)); [right; auto|]. destruct A as [->|A]; auto.
    - intros x [<-|Hx]; [apply Rmin_l|]. pose proof (Rmin_r y (f k)). pose proof (B x Hx). unfold f in *. lra.
    - pose proof (Rmin_r y (f k)). unfold f in *. lra. }
  destruct (K (h :: l)) as (A & B & C). split; [|exact B]. destruct A as [A|A]; [rewrite A; left; auto|exact A].
Qed.
Lemma rmax_spec l : l <> [] -> In (rmax l) l /\ forall x, In x l -> x <= rmax l.
Proof.
  unfold rmax. intros Hn. destruct l as [|h l]; [congruence|]. cbn [hd]. set (f := fold_right Rmax h). assert (forall k, (f k = h \/ In (f k) k) /\ (forall x, In x k -> x <= f k) /\ h <= f k) as K.
  { induction k as [|y k (A & B & C)]; cbn; [split; [auto|split; [tauto|lra]]|]. fold f. split; [|split].
    - unfold Rmax. destruct (Rle_dec y (f k)); [destruct A as [->|A]; auto|right; auto].
    - intros x [<-|Hx]; [apply Rmax_l|]. pose proof (Rmax_r y (f k)). pose proof (B x Hx). unfold f in *. lra.
    - pose proof (Rmax_r y (f k)). unfold f in *. lra. }
  destruct (K (h :: l)) as (A & B & C). split; [|exact B]. destruct A as [A|A]; [rewrite A; left; auto|exact A].
Qed.
(** For data that are not all equal and a base above 1, rescaling maps the minimum to [lower], the maximum to [upper], everything
    else strictly in between, and strictly preserves the order. *)
Theorem C35_rescale : forall val lower upper base, 1 < base -> lower < upper -> (exists x y, In x val /\ In y val /\ x < y) ->
  exists f, lin_to_log_rescale val lower upper base = Ok (map (fun x => Some (f x)) val) /\
  (forall x y, In x val -> In y val -> (x < y <-> f x < f y)) /\ (forall x, In x val -> lower <= f x <= upper) /\
  (forall x, In x val -> (f x = lower <-> forall y, In y val -> x <= y)) /\ (forall x, In x val -> (f x = upper <-> forall y, In y val -> y <= x)).
Proof.
  intros val lower upper base Hb Hl (x0 & y0 & Hx0 & Hy0 & Hxy). unfold lin_to_log_rescale.
  assert (val <> []) as Hn by (intros ->; destruct Hx0). destruct (rmin_spec val Hn) as (In1 & Min). set (mi := rmin val) in *. clearbody mi.
  assert (exists v0 vr, val = v0 :: vr) as (v0 & vr & Ev) by (destruct val; [congruence|eauto]).
  set (v := map (fun x => x - mi) val). assert (v <> []) as Hvn by (unfold v; rewrite Ev; discriminate).
  destruct (rmax_spec v Hvn) as (In2 & Max). set (mx := rmax v) in *. clearbody mx.
  assert (0 < mx) as Hmx. { assert (In (y0 - mi) v) as Q by (unfold v; apply in_map_iff; eauto). apply Max in Q. pose proof (Min x0 Hx0). lra. }
  rewrite Ev. rewrite <- Ev. destruct (Rlt_dec upper lower); [lra|]. destruct (Req_EM_T mx 0) as [Q|_]; [lra|].
  set (lo := Rpower base lower). set (up := Rpower base upper). assert (0 < lo) as Hlo by apply exp_pos. assert (0 < ln base) as Lb by (rewrite <- ln_1; apply ln_increasing; lra).
  assert (lo < up) as Hup by (apply Rpower_lt; auto). assert (0 < (up - lo) / mx) as Hq by (apply Rdiv_lt_0_compat; lra).
  set (f := fun x => ln ((x - mi) * ((up - lo) / mx) + lo) / ln base). exists f. split.
  { f_equal. unfold v. rewrite map_map. reflexivity. }
  assert (forall x, In x val -> 0 < (x - mi) * ((up - lo) / mx) + lo) as Pos. { intros x Hx. pose proof (Min x Hx). assert (0 <= (x - mi) * ((up - lo) / mx)) by (apply Rmult_le_pos; lra). lra. }
  assert (forall x y, In x val -> In y val -> x < y -> f x < f y) as Mono.
  { intros x y Hx Hy L. unfold f. apply Rmult_lt_compat_r; [now apply Rinv_0_lt_compat|]. apply ln_increasing; [auto|]. apply Rplus_lt_compat_r, Rmult_lt_compat_r; lra. }
  assert (forall x y, In x val -> In y val -> (x < y <-> f x < f y)) as MonoI.
  { intros x y Hx Hy. split; [now apply Mono|]. intros L. destruct (Rtotal_order x y) as [|[->|G]]; [auto|lra|]. apply (Mono y x) in G; auto. lra. }
  assert (f mi = lower) as Fmi. { unfold f. replace (mi - mi) with 0 by ring. rewrite Rmult_0_l, Rplus_0_l. unfold lo, Rpower. rewrite ln_exp. field. lra. }
  assert (exists xm, In xm val /\ xm - mi = mx) as (xm & Ixm & Exm). { unfold v in In2. apply in_map_iff in In2. destruct In2 as (q & E & Hq'). exists q. split; auto. }
  assert (f xm = upper) as Fxm. { unfold f. rewrite Exm. replace (mx * ((up - lo) / mx) + lo) with up by (field; lra). unfold up, Rpower. rewrite ln_exp. field. lra. }
  assert (forall y, In y val -> y <= xm) as Mxm. { intros y Hy. assert (In (y - mi) v) as Q by (unfold v; apply in_map_iff; eauto). apply Max in Q. lra. }
  assert (forall x y, In x val -> In y val -> x <= y -> f x <= f y) as Mw. { intros x y Hx Hy L. destruct (Req_dec x y) as [->|]; [lra|]. left. apply Mono; auto. lra. }
  split; [exact MonoI|]. split; [|split].
  - intros x Hx. rewrite <- Fmi, <- Fxm. split; apply Mw; auto.
  - intros x Hx. rewrite <- Fmi. split; [|intros H; apply Rle_antisym; apply Mw; auto].
    intros E y Hy. destruct (Rle_dec x y); [auto|]. apply Rnot_le_lt in n0. pose proof (Min y Hy). assert (mi < x) as G by lra. apply (MonoI mi x) in G; auto. lra.
  - intros x Hx. rewrite <- Fxm. split; [|intros H; apply Rle_antisym; apply Mw; auto].
    intros E y Hy. destruct (Rle_dec y x); [auto|]. apply Rnot_le_lt in n0. pose proof (Mxm y Hy). assert (x < xm) as G by lra. apply (MonoI x xm) in G; auto. lra.
Qed.
Print Assumptions C35_rescale.
Example C35_ex : 1 < 10 /\ exists x y, In x [3; 5; 4] /\ In y [3; 5; 4] /\ x < y.
Proof. split; [lra|]. exists 3, 5. cbn. repeat split; auto; lra. Qed.
(** Constant data give NaN everywhere. *)
Theorem C35_constant_refuted : lin_to_log_rescale [2; 2] 1 3 10 = Ok [None; None].
Proof.
  unfold lin_to_log_rescale. destruct (Rlt_dec 3 1); [lra|]. cbn [map]. set (mx := rmax _). assert (mx = 0) as ->; [|destruct (Req_EM_T 0 0); [reflexivity|lra]].
  unfold mx, rmax, rmin. cbn. unfold Rmin, Rmax. repeat (destruct (Rle_dec _ _); try lra).
Qed.
