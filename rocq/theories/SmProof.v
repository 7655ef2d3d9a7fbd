(** * SmProof: smoothing (C112) *)
From Coq Require Import List Bool Reals Lra Lia ZArith String Psatz.
From Verif Require Import PyBase SpecModel RealTrig SmModel.
Import ListNotations.
Open Scope R_scope.

(** ** sums *)
Lemma zsum_ext f g n : forall lo, (forall k, (lo <= k < lo + Z.of_nat n)%Z -> f k = g k) -> zsum f lo n = zsum g lo n.
Proof. induction n as [|n I]; intros lo H; cbn [zsum]; trivial. rewrite H by lia. rewrite (I (lo + 1)%Z); trivial. intros k K. apply H. lia. Qed.
Lemma zsum_add f g n : forall lo, zsum (fun k => f k + g k) lo n = zsum f lo n + zsum g lo n.
Proof. induction n as [|n I]; intros lo; cbn [zsum]; [lra|]. rewrite I. lra. Qed.
Lemma zsum_scal c f n : forall lo, zsum (fun k => c * f k) lo n = c * zsum f lo n.
Proof. induction n as [|n I]; intros lo; cbn [zsum]; [lra|]. rewrite I. lra. Qed.
Lemma zsum_0 n : forall lo, zsum (fun _ => 0) lo n = 0.
Proof. induction n as [|n I]; intros lo; cbn [zsum]; [lra|]. rewrite I. lra. Qed.
Lemma zsum_const c n : forall lo, zsum (fun _ => c) lo n = INR n * c.
Proof. induction n as [|n I]; intros lo; [simpl; lra|]. cbn [zsum]. rewrite I, S_INR. lra. Qed.
Lemma zsum_le f g n : forall lo, (forall k, (lo <= k < lo + Z.of_nat n)%Z -> f k <= g k) -> zsum f lo n <= zsum g lo n.
Proof. induction n as [|n I]; intros lo H; cbn [zsum]; [lra|]. apply Rplus_le_compat; [apply H; lia|]. apply I. intros k K. apply H. lia. Qed.
Lemma zsum_last f n : forall lo, zsum f lo (S n) = zsum f lo n + f (lo + Z.of_nat n)%Z.
Proof.
  induction n as [|n I]; intros lo. { cbn [zsum]. rewrite Z.add_0_r. lra. }
  cbn [zsum] in *. rewrite I. replace (lo + 1 + Z.of_nat n)%Z with (lo + Z.of_nat (S n))%Z by lia. lra.
Qed.
Lemma zsum_shift f n : forall lo d, zsum (fun k => f (k + d)%Z) lo n = zsum f (lo + d)%Z n.
Proof. induction n as [|n I]; intros lo d; cbn [zsum]; trivial. rewrite I. do 2 f_equal. lia. Qed.
Lemma zsum_mirror f n : forall lo, zsum (fun k => f (- k)%Z) lo n = zsum f (- (lo + Z.of_nat n) + 1)%Z n.
Proof.
  induction n as [|n I]; intros lo; trivial. rewrite zsum_last, I. cbn [zsum]. rewrite Rplus_comm. f_equal; [f_equal; lia|f_equal; lia].
Qed.
Lemma zsum_swap (f : Z -> Z -> R) n m : forall lo lo', zsum (fun i => zsum (f i) lo' m) lo n = zsum (fun k => zsum (fun i => f i k) lo n) lo' m.
Proof.
  induction n as [|n I]; intros lo lo'; cbn [zsum]. { now rewrite zsum_0. } rewrite I, <- zsum_add. reflexivity.
Qed.
Lemma zsum_pos f n : forall lo, (n > 0)%nat -> (forall k, 0 < f k) -> 0 < zsum f lo n.
Proof. induction n as [|n I]; intros lo N P; [lia|]. cbn [zsum]. specialize (P lo) as Q. destruct n; [cbn [zsum]; lra|]. specialize (I (lo + 1)%Z ltac:(lia) P). lra. Qed.

(** ** reflection *)
Lemma refl_lt n j : (n > 0)%nat -> (refl n j < n)%nat.
Proof. intros N. unfold refl. pose proof (Z.mod_pos_bound j (2 * Z.of_nat n) ltac:(lia)). destruct (Z.ltb_spec (j mod (2 * Z.of_nat n)) (Z.of_nat n)); lia. Qed.
Lemma refl_in n j : (0 <= j < Z.of_nat n)%Z -> refl n j = Z.to_nat j.
Proof. intros J. unfold refl. rewrite Z.mod_small by lia. destruct (Z.ltb_spec j (Z.of_nat n)); [trivial|lia]. Qed.
Lemma refl_period n j : (n > 0)%nat -> refl n (j + 2 * Z.of_nat n) = refl n j.
Proof. intros N. unfold refl. replace (j + 2 * Z.of_nat n)%Z with (j + 1 * (2 * Z.of_nat n))%Z by lia. rewrite Z_mod_plus_full. reflexivity. Qed.
Lemma refl_low n j : (n > 0)%nat -> refl n (-1 - j) = refl n j.
Proof.
  intros N. unfold refl. set (M := (2 * Z.of_nat n)%Z). assert (Mp : (M > 0)%Z) by lia. pose proof (Z.mod_pos_bound j M ltac:(lia)) as B.
  assert (E : ((-1 - j) mod M = M - 1 - j mod M)%Z).
  { symmetry. apply Z.mod_unique with (- (j / M) - 1)%Z; [left; lia|]. pose proof (Z.div_mod j M ltac:(lia)). nia. }
  rewrite E. destruct (Z.ltb_spec (M - 1 - j mod M) (Z.of_nat n)), (Z.ltb_spec (j mod M) (Z.of_nat n)); f_equal; lia.
Qed.
Lemma refl_high n j : (n > 0)%nat -> refl n (Z.of_nat n + j) = refl n (Z.of_nat n - 1 - j).
Proof. intros N. rewrite <- (refl_low n (Z.of_nat n + j) N), <- (refl_period n (-1 - _) N). f_equal. lia. Qed.
Lemma refl_mirror n j : (n > 0)%nat -> (refl n (Z.of_nat n - 1 - j) + refl n j = n - 1)%nat.
Proof.
  intros N. rewrite <- refl_high by trivial. unfold refl. set (M := (2 * Z.of_nat n)%Z). pose proof (Z.mod_pos_bound j M ltac:(lia)) as B.
  assert (E : ((Z.of_nat n + j) mod M = if (j mod M <? Z.of_nat n)%Z then j mod M + Z.of_nat n else j mod M - Z.of_nat n)%Z).
  { pose proof (Z.div_mod j M ltac:(lia)). destruct (Z.ltb_spec (j mod M) (Z.of_nat n)); symmetry; [apply Z.mod_unique with (j / M)%Z|apply Z.mod_unique with (j / M + 1)%Z]; try (left; lia); nia. }
  rewrite E. destruct (Z.ltb_spec (j mod M) (Z.of_nat n)).
  - destruct (Z.ltb_spec (j mod M + Z.of_nat n) (Z.of_nat n)); lia.
  - destruct (Z.ltb_spec (j mod M - Z.of_nat n) (Z.of_nat n)); lia.
Qed.
Lemma pick_in l j : l <> [] -> In (pick l j) l.
Proof. intros N. apply nth_In. apply refl_lt. destruct l; [congruence|cbn; lia]. Qed.
Lemma pick_self l i : (i < List.length l)%nat -> pick l (Z.of_nat i) = nth i l 0.
Proof. intros L. unfold pick. rewrite refl_in by lia. now rewrite Nat2Z.id. Qed.
Lemma correlate_length w lo n l : List.length (correlate w lo n l) = List.length l.
Proof. unfold correlate. now rewrite map_length, seq_length. Qed.
Lemma correlate_nth w lo n l i : (i < List.length l)%nat -> nth i (correlate w lo n l) 0 = zsum (fun k => w k * pick l (Z.of_nat i + k)) lo n.
Proof.
  intros L. unfold correlate. rewrite (nth_indep _ 0 (zsum (fun k => w k * pick l (Z.of_nat 0 + k)) lo n)) by (rewrite map_length, seq_length; trivial).
  rewrite (map_nth (fun i => zsum (fun k => w k * pick l (Z.of_nat i + k)) lo n)). now rewrite seq_nth by trivial.
Qed.
Lemma correlate_in w lo n l y : In y (correlate w lo n l) -> exists i, (i < List.length l)%nat /\ y = zsum (fun k => w k * pick l (Z.of_nat i + k)) lo n.
Proof. unfold correlate. intros H. apply in_map_iff in H. destruct H as (i & <- & I). apply in_seq in I. exists i. split; [lia|trivial]. Qed.

(** ** weights that are a mean *)
Definition averaging (w : Z -> R) (lo : Z) (n : nat) : Prop := (forall k, (lo <= k < lo + Z.of_nat n)%Z -> 0 <= w k) /\ zsum w lo n = 1.
Lemma averaging_between w lo n l a b : averaging w lo n -> (forall y, In y l -> a <= y <= b) -> forall y, In y (correlate w lo n l) -> a <= y <= b.
Proof.
  intros (W & S) H y Y. apply correlate_in in Y. destruct Y as (i & L & ->). assert (N : l <> []) by (intros ->; cbn in L; lia).
  replace a with (zsum (fun k => a * w k) lo n) by (rewrite zsum_scal, S; lra). replace b with (zsum (fun k => b * w k) lo n) by (rewrite zsum_scal, S; lra).
  split; apply zsum_le; intros k K; specialize (W k K); destruct (H _ (pick_in l (Z.of_nat i + k) N)); nra.
Qed.
Lemma averaging_constant w lo n c m : averaging w lo n -> correlate w lo n (repeat c m) = repeat c m.
Proof.
  intros A. apply (nth_ext _ _ 0 0). { apply correlate_length. }
  rewrite correlate_length, repeat_length. intros i L. assert (P : In (nth i (correlate w lo n (repeat c m)) 0) (correlate w lo n (repeat c m))). { apply nth_In. now rewrite correlate_length, repeat_length. }
  assert (Q : In (nth i (repeat c m) 0) (repeat c m)). { apply nth_In. now rewrite repeat_length. } apply repeat_spec in Q. rewrite Q.
  apply (averaging_between w lo n _ c c A) in P; [lra|]. intros y Y. apply repeat_spec in Y. lra.
Qed.
Lemma averaging_add w lo n l l' : List.length l' = List.length l -> correlate w lo n (map2 Rplus l l') = map2 Rplus (correlate w lo n l) (correlate w lo n l').
Proof.
  intros E. assert (M : forall a b, List.length b = List.length a -> List.length (map2 Rplus a b) = List.length a). { intros a b L. unfold map2. rewrite map_length, combine_length. lia. }
  assert (Mn : forall a b i, List.length b = List.length a -> nth i (map2 Rplus a b) 0 = nth i a 0 + nth i b 0).
  { induction a as [|x a I]; intros [|y b] i L; try discriminate; destruct i; cbn; try lra. apply (I b i). now injection L. }
  apply (nth_ext _ _ 0 0). { rewrite correlate_length, !M; rewrite ?correlate_length; trivial. }
  rewrite correlate_length, M by trivial. intros i L. rewrite Mn by now rewrite !correlate_length. rewrite !correlate_nth by (rewrite ?M, ?E; trivial).
  rewrite <- zsum_add. apply zsum_ext. intros k _. unfold pick. rewrite Mn by trivial. rewrite M, E by trivial. lra.
Qed.

(** ** weights that are symmetric *)
Definition total (l : list R) : R := fold_right Rplus 0 l.
Lemma total_zsum l : total l = zsum (fun i => nth (Z.to_nat i) l 0) 0 (List.length l).
Proof.
  induction l as [|x l I]; trivial. cbn [total fold_right List.length zsum]. fold (total l). rewrite I. change (nth (Z.to_nat 0) (x :: l) 0) with x. apply (f_equal (Rplus x)). change (0 + 1)%Z with 1%Z.
  transitivity (zsum (fun i => nth (Z.to_nat (i + 1)) (x :: l) 0) 0 (List.length l)); [|apply (zsum_shift (fun i => nth (Z.to_nat i) (x :: l) 0))]. apply zsum_ext. intros k K. replace (Z.to_nat (k + 1)) with (S (Z.to_nat k)) by lia. reflexivity.
Qed.
Lemma shifted_total l k : l <> [] -> (0 <= k)%Z -> zsum (fun i => pick l (i + k)) 0 (List.length l) + zsum (fun i => pick l (i + - k)) 0 (List.length l) = 2 * total l.
Proof.
  intros N. assert (Ln : (List.length l > 0)%nat) by (destruct l; [congruence|cbn; lia]). revert k. apply natlike_ind.
  - rewrite (zsum_ext _ (fun i => nth (Z.to_nat i) l 0)). 2:{ intros k K. rewrite Z.add_0_r. unfold pick. now rewrite refl_in by lia. }
    rewrite (zsum_ext (fun i => pick l (i + - 0)) (fun i => nth (Z.to_nat i) l 0)). 2:{ intros k K. rewrite Z.add_0_r. unfold pick. now rewrite refl_in by lia. }
    rewrite <- total_zsum. lra.
  - intros k K I. rewrite <- I. rewrite !zsum_shift. destruct (List.length l) as [|n] eqn:En; [lia|].
    assert (A : zsum (pick l) (0 + Z.succ k) (S n) = zsum (pick l) (0 + k) (S n) - pick l (0 + k) + pick l (Z.of_nat (S n) + k)).
    { rewrite zsum_last. change (zsum (pick l) (0 + k) (S n)) with (pick l (0 + k)%Z + zsum (pick l) (0 + k + 1) n). replace (0 + Z.succ k)%Z with (0 + k + 1)%Z by lia. replace (0 + k + 1 + Z.of_nat n)%Z with (Z.of_nat (S n) + k)%Z by lia. lra. }
    assert (B : zsum (pick l) (0 + - Z.succ k) (S n) = zsum (pick l) (0 + - k) (S n) - pick l (Z.of_nat (S n) - 1 - k) + pick l (-1 - k)).
    { rewrite (zsum_last _ n (0 + - k)%Z). change (zsum (pick l) (0 + - Z.succ k) (S n)) with (pick l (0 + - Z.succ k)%Z + zsum (pick l) (0 + - Z.succ k + 1) n). replace (0 + - Z.succ k + 1)%Z with (0 + - k)%Z by lia. replace (0 + - Z.succ k)%Z with (-1 - k)%Z by lia. replace (0 + - k + Z.of_nat n)%Z with (Z.of_nat (S n) - 1 - k)%Z by lia. lra. }
    rewrite A, B. assert (pick l (Z.of_nat (S n) + k) = pick l (Z.of_nat (S n) - 1 - k)) as ->. { unfold pick. rewrite En, refl_high by lia. reflexivity. }
    assert (pick l (-1 - k) = pick l (0 + k)) as ->. { unfold pick. rewrite En, refl_low by lia. reflexivity. } lra.
Qed.
Definition symmetric (w : Z -> R) : Prop := forall k, w (- k)%Z = w k.
Lemma symmetric_total w r l : symmetric w -> zsum w (- Z.of_nat r) (2 * r + 1) = 1 -> total (correlate w (- Z.of_nat r) (2 * r + 1) l) = total l.
Proof.
  intros S W. destruct l as [|x0 l0] eqn:El; [reflexivity|]. rewrite <- El. assert (N : l <> []) by now rewrite El. clear x0 l0 El.
  rewrite total_zsum, correlate_length. rewrite (zsum_ext _ (fun i => zsum (fun k => w k * pick l (i + k)) (- Z.of_nat r) (2 * r + 1))).
  2:{ intros i I. rewrite correlate_nth by lia. apply zsum_ext. intros. do 2 f_equal. lia. }
  rewrite zsum_swap. set (T := fun k => zsum (fun i => pick l (i + k)) 0 (List.length l)).
  rewrite (zsum_ext _ (fun k => w k * T k)). 2:{ intros k _. now rewrite zsum_scal. }
  assert (E : zsum (fun k => w k * T k) (- Z.of_nat r) (2 * r + 1) = zsum (fun k => w k * T (- k)%Z) (- Z.of_nat r) (2 * r + 1)).
  { set (F := fun k => w k * T k). rewrite (zsum_ext (fun k => w k * T (- k)%Z) (fun k => F (- k)%Z)). 2:{ intros k _. unfold F. now rewrite S. } rewrite (zsum_mirror F). f_equal. lia. }
  assert (D : zsum (fun k => w k * T k) (- Z.of_nat r) (2 * r + 1) + zsum (fun k => w k * T (- k)%Z) (- Z.of_nat r) (2 * r + 1) = 2 * total l).
  { rewrite <- zsum_add. rewrite (zsum_ext _ (fun k => 2 * total l * w k)). { rewrite zsum_scal, W. lra. }
    intros k _. assert (T k + T (- k)%Z = 2 * total l); [|nra]. unfold T. destruct (Z_le_gt_dec 0 k) as [K|K]; [now apply shifted_total|].
    rewrite Rplus_comm. rewrite <- (shifted_total l (- k) N ltac:(lia)). now rewrite Z.opp_involutive. }
  lra.
Qed.
Lemma symmetric_mirror w r l : symmetric w -> correlate w (- Z.of_nat r) (2 * r + 1) (rev l) = rev (correlate w (- Z.of_nat r) (2 * r + 1) l).
Proof.
  intros S. apply (nth_ext _ _ 0 0). { now rewrite rev_length, !correlate_length, rev_length. }
  rewrite correlate_length, rev_length. intros i L. rewrite rev_nth by now rewrite correlate_length. rewrite correlate_length, !correlate_nth by (rewrite ?rev_length; lia).
  set (F := fun j => w j * pick l (Z.of_nat (List.length l - Datatypes.S i) + j)). rewrite (zsum_ext _ (fun k => F (- k)%Z)).
  - rewrite (zsum_mirror F). f_equal. lia.
  - intros k _. unfold F. rewrite S. f_equal. unfold pick. rewrite rev_length. assert (P := refl_mirror (List.length l) (Z.of_nat i + k) ltac:(lia)).
    pose proof (refl_lt (List.length l) (Z.of_nat i + k) ltac:(lia)). rewrite rev_nth by trivial. f_equal. replace (Z.of_nat (List.length l - Datatypes.S i) + - k)%Z with (Z.of_nat (List.length l) - 1 - (Z.of_nat i + k))%Z by lia. lia.
Qed.

(** ** the two filters *)
Lemma gauss_averaging sd : 0 < sd -> let r := gauss_radius sd in let tot := zsum (gauss_raw sd) (- Z.of_nat r) (2 * r + 1) in
  averaging (fun k => gauss_raw sd k / tot) (- Z.of_nat r) (2 * r + 1) /\ symmetric (fun k => gauss_raw sd k / tot).
Proof.
  intros P r tot. assert (T : 0 < tot). { apply zsum_pos; [lia|]. intros k. apply exp_pos. } repeat split.
  - intros k _. apply Rlt_le, Rdiv_lt_0_compat; trivial. apply exp_pos.
  - rewrite (zsum_ext _ (fun k => / tot * gauss_raw sd k)) by (intros; unfold Rdiv; lra). rewrite zsum_scal. fold tot. field. lra.
  - intros k. unfold gauss_raw. rewrite opp_IZR. do 3 f_equal. ring.
Qed.
Lemma uniform_averaging size : (1 <= size)%Z -> averaging (fun _ => 1 / IZR size) (- (size / 2)) (Z.to_nat size).
Proof.
  intros S. assert (1 <= IZR size) by now apply IZR_le. split.
  - intros k _. apply Rlt_le, Rdiv_lt_0_compat; lra.
  - rewrite zsum_const, INR_IZR_INZ, Z2Nat.id by lia. field. lra.
Qed.
(** what [smooth] does with each array *)
Definition filtered (width : R) (filtertype : option string) (l l' : list R) : Prop :=
  exists w lo n, averaging w lo n /\ l' = correlate w lo n l /\
    ((filtertype = Some "gaussian"%string \/ (filtertype = None /\ 0 < width)) /\ l' = gaussian_filter1d l width /\ (exists r, lo = (- Z.of_nat r)%Z /\ n = (2 * r + 1)%nat) /\ symmetric w \/
     (filtertype = Some "boxcar"%string \/ (filtertype = None /\ width <= 0)) /\ uniform_filter1d l (rfloor (2 * match filtertype with None => - width | _ => width end)) = Ok l').
Definition fitting (width : R) (filtertype : option string) : Prop := filtertype = Some "gaussian"%string -> 0 < width.
Lemma gauss_filtered ft width l : (ft = Some "gaussian"%string \/ (ft = None /\ 0 < width)) -> 0 < width -> filtered width ft l (gaussian_filter1d l width).
Proof.
  intros F P. destruct (gauss_averaging width P) as (A & S). eexists _, _, _. split; [exact A|]. split; [reflexivity|]. left. repeat split; trivial. eexists. split; reflexivity.
Qed.
Lemma uniform_filtered ft width size l l' : (ft = Some "boxcar"%string \/ (ft = None /\ width <= 0)) -> size = rfloor (2 * match ft with None => - width | _ => width end) -> uniform_filter1d l size = Ok l' -> filtered width ft l l'.
Proof.
  intros F -> U. unfold filtered. pose proof U as U'. unfold uniform_filter1d in U'. destruct (Z.ltb_spec (rfloor (2 * match ft with None => - width | _ => width end)) 1); [discriminate|]. injection U' as <-.
  eexists _, _, _. split; [apply uniform_averaging; eassumption|]. split; [reflexivity|]. right. split; trivial.
Qed.
Lemma smooth_filtered s width ft rep s' f e : fitting width ft -> smooth s width ft rep = (s', Ok (f, e)) -> filtered width ft (sflux s) f /\ filtered width ft (serr s) e.
Proof.
  intros Fi. unfold smooth. destruct ft as [t|].
  - destruct (String.eqb_spec t "gaussian") as [->|]. { intros H. injection H as _ <- <-. split; apply gauss_filtered; auto. }
    destruct (String.eqb_spec t "boxcar") as [->|]; [|discriminate]. destruct (uniform_filter1d (sflux s) _) as [f'| |] eqn:U1; try discriminate; destruct (uniform_filter1d (serr s) _) as [e'| |] eqn:U2; try discriminate.
    intros H. injection H as _ <- <-. split; (eapply uniform_filtered; [now left|reflexivity|eassumption]).
  - destruct (Rlt_dec 0 width) as [P|P].
    + cbn [String.eqb]. change ("gaussian" =? "gaussian")%string with true. cbv iota. intros H. injection H as _ <- <-. split; apply gauss_filtered; auto.
    + change ("boxcar" =? "gaussian")%string with false. change ("boxcar" =? "boxcar")%string with true. cbv iota.
      destruct (uniform_filter1d (sflux s) _) as [f'| |] eqn:U1; try discriminate; destruct (uniform_filter1d (serr s) _) as [e'| |] eqn:U2; try discriminate.
      intros H. injection H as _ <- <-. split; (eapply uniform_filtered; [right; split; [trivial|lra]|reflexivity|eassumption]).
Qed.

(** ** C112 *)
(** what is returned replaces flux and error, if asked for, and nothing else is changed *)
Theorem smooth_replaces s width ft rep : let '(s', r) := smooth s width ft rep in
  match r with
  | Ok (f, e) => s' = (if rep then Spec (sx s) f e (sunit s) (scont s) (scontop s) (sz s) else s) /\ List.length f = List.length (sflux s) /\ List.length e = List.length (serr s)
  | _ => s' = s
  end.
Proof.
  unfold smooth. set (p := match ft with None => _ | Some t => _ end). destruct p as [t w]. destruct (String.eqb t "gaussian").
  - repeat split; apply correlate_length.
  - destruct (String.eqb t "boxcar"); trivial. unfold uniform_filter1d. destruct (Z.ltb (rfloor (2 * w)) 1); trivial. repeat split; apply correlate_length.
Qed.
Theorem smooth_between s width ft rep s' f e a b : fitting width ft -> smooth s width ft rep = (s', Ok (f, e)) ->
  ((forall y, In y (sflux s) -> a <= y <= b) -> forall y, In y f -> a <= y <= b) /\ ((forall y, In y (serr s) -> a <= y <= b) -> forall y, In y e -> a <= y <= b).
Proof.
  intros Fi H. apply smooth_filtered in H; trivial. destruct H as ((w & lo & n & A & -> & _) & (w' & lo' & n' & A' & -> & _)). split; now apply averaging_between.
Qed.
Theorem smooth_constant s width ft rep s' f e c m : fitting width ft -> smooth s width ft rep = (s', Ok (f, e)) -> sflux s = repeat c m -> f = repeat c m.
Proof. intros Fi H E. apply smooth_filtered in H; trivial. destruct H as ((w & lo & n & A & -> & _) & _). rewrite E. now apply averaging_constant. Qed.
(** sums of spectra are smoothed to the sums *)
Theorem smooth_additive x1 x2 x3 f1 f2 e1 e2 u c o z width ft rep : List.length f2 = List.length f1 -> List.length e2 = List.length e1 ->
  match snd (smooth (Spec x1 f1 e1 u c o z) width ft rep), snd (smooth (Spec x2 f2 e2 u c o z) width ft rep), snd (smooth (Spec x3 (map2 Rplus f1 f2) (map2 Rplus e1 e2) u c o z) width ft rep) with
  | Ok (g1, h1), Ok (g2, h2), Ok (g3, h3) => g3 = map2 Rplus g1 g2 /\ h3 = map2 Rplus h1 h2
  | r1, r2, r3 => r1 = r3 /\ r2 = r3
  end.
Proof.
  intros L1 L2. unfold smooth. set (p := match ft with None => _ | Some t => _ end). destruct p as [t w]. cbn [sflux serr]. destruct (String.eqb t "gaussian").
  - cbn [snd]. unfold gaussian_filter1d. split; now apply averaging_add.
  - destruct (String.eqb t "boxcar"); [|now split]. unfold uniform_filter1d. destruct (Z.ltb (rfloor (2 * w)) 1); [now split|]. cbn [snd]. split; now apply averaging_add.
Qed.
(** a Gaussian keeps the sum over the spectrum, and smooths the mirrored spectrum to the mirrored one *)
Theorem gaussian_keeps_total s width rep : 0 < width -> exists s' f e, smooth s width (Some "gaussian"%string) rep = (s', Ok (f, e)) /\ total f = total (sflux s) /\ total e = total (serr s).
Proof.
  intros P. do 3 eexists. split; [reflexivity|]. destruct (gauss_averaging width P) as (A & S). split; apply symmetric_total; trivial; apply A.
Qed.
Theorem gaussian_mirrors s width rep : 0 < width -> exists s1 s2 f e, smooth s width (Some "gaussian"%string) rep = (s1, Ok (f, e)) /\
  smooth (Spec (sx s) (rev (sflux s)) (rev (serr s)) (sunit s) (scont s) (scontop s) (sz s)) width (Some "gaussian"%string) rep = (s2, Ok (rev f, rev e)).
Proof.
  intros P. destruct (gauss_averaging width P) as (A & S). do 4 eexists. split; [reflexivity|]. unfold smooth. change ("gaussian" =? "gaussian")%string with true. cbv iota. cbn [sflux serr].
  assert (E : forall l, gaussian_filter1d (rev l) width = rev (gaussian_filter1d l width)) by (intros; now apply symmetric_mirror). rewrite !E. reflexivity.
Qed.
(** without a type: Gaussian for a positive width, boxcar of that half-width for a negative one *)
Theorem sign_selects s width rep : (0 < width -> smooth s width None rep = smooth s width (Some "gaussian"%string) rep) /\ (width < 0 -> smooth s width None rep = smooth s (- width) (Some "boxcar"%string) rep).
Proof. split; intros W; unfold smooth; destruct (Rlt_dec 0 width); try lra; reflexivity. Qed.
(** boxcar: away from the ends the mean of the [2 n] pixels from [n] before on *)
Lemma zsum_total l m : forall lo, (lo + m <= List.length l)%nat -> zsum (fun i => nth (Z.to_nat i) l 0) (Z.of_nat lo) m = total (firstn m (skipn lo l)).
Proof.
  induction m as [|m I]; intros lo H; trivial. cbn [zsum]. rewrite Nat2Z.id. replace (Z.of_nat lo + 1)%Z with (Z.of_nat (S lo)) by lia. rewrite I by lia.
  assert (E : skipn lo l = nth lo l 0 :: skipn (S lo) l).
  { clear I. revert lo H. induction l as [|x l J]; intros lo H; [cbn in H; lia|]. destruct lo; trivial. cbn [skipn nth]. apply J. cbn in H. lia. }
  rewrite E. reflexivity.
Qed.
Theorem boxcar_mean s (n : nat) rep i : (1 <= n <= i)%nat -> (i + n <= List.length (sflux s))%nat ->
  exists s' f e, smooth s (INR n) (Some "boxcar"%string) rep = (s', Ok (f, e)) /\ nth i f 0 = total (firstn (2 * n) (skipn (i - n) (sflux s))) / (2 * INR n).
Proof.
  intros N L. unfold smooth. change ("boxcar" =? "gaussian")%string with false. change ("boxcar" =? "boxcar")%string with true. cbv iota.
  assert (Z2 : rfloor (2 * INR n) = (2 * Z.of_nat n)%Z). { rewrite INR_IZR_INZ, <- mult_IZR. apply rfloor_IZR. } rewrite Z2. unfold uniform_filter1d. destruct (Z.ltb_spec (2 * Z.of_nat n) 1); [lia|].
  do 3 eexists. split; [reflexivity|]. rewrite correlate_nth by lia. rewrite zsum_scal. assert (Nz : INR n <> 0) by (apply not_0_INR; lia).
  assert (E : IZR (2 * Z.of_nat n) = 2 * INR n) by (rewrite mult_IZR, <- INR_IZR_INZ; lra). rewrite E.
  replace (2 * Z.of_nat n / 2)%Z with (Z.of_nat n) by (rewrite Z.mul_comm, Z.div_mul; lia). replace (Z.to_nat (2 * Z.of_nat n)) with (2 * n)%nat by lia.
  rewrite (zsum_ext _ (fun k => (fun j => nth (Z.to_nat j) (sflux s) 0) (k + Z.of_nat i)%Z)).
  2:{ intros k K. unfold pick. rewrite refl_in by lia. do 2 f_equal. lia. }
  rewrite (zsum_shift (fun j => nth (Z.to_nat j) (sflux s) 0)). replace (- Z.of_nat n + Z.of_nat i)%Z with (Z.of_nat (i - n)) by lia. rewrite zsum_total by lia. field. trivial.
Qed.
(** a straight stretch: kept by a Gaussian, moved by half a pixel by a boxcar *)
Lemma gauss_radius_le width : 0 < width -> INR (gauss_radius width) <= 4 * width + 1 / 2.
Proof. intros P. unfold gauss_radius. rewrite INR_IZR_INZ, Z2Nat.id by (apply rfloor_nonneg; lra). apply rfloor_spec. Qed.
Theorem gaussian_keeps_straight s width rep i a b : 0 < width -> (i < List.length (sflux s))%nat ->
  (forall j, Rabs (INR j - INR i) <= 4 * width + 1 / 2 -> (j < List.length (sflux s))%nat -> nth j (sflux s) 0 = a + b * INR j) ->
  4 * width + 1 / 2 <= INR i -> INR i + 4 * width + 1 / 2 <= INR (List.length (sflux s)) - 1 ->
  exists s' f e, smooth s width (Some "gaussian"%string) rep = (s', Ok (f, e)) /\ nth i f 0 = nth i (sflux s) 0.
Proof.
  intros P L H B1 B2. do 3 eexists. split; [reflexivity|]. unfold gaussian_filter1d. rewrite correlate_nth by trivial. destruct (gauss_averaging width P) as ((_ & A) & S).
  pose proof (gauss_radius_le width P) as G. set (r := gauss_radius width) in *. set (w := fun k => gauss_raw width k / zsum (gauss_raw width) (- Z.of_nat r) (2 * r + 1)) in *.
  assert (R1 : (r <= i)%nat) by (apply INR_le; lra). assert (R2 : (i + r < List.length (sflux s))%nat). { apply INR_lt. rewrite plus_INR. lra. }
  rewrite (zsum_ext _ (fun k => (a + b * INR i) * w k + b * (IZR k * w k))).
  - rewrite zsum_add, !zsum_scal, A.
    assert (Z0 : zsum (fun k => IZR k * w k) (- Z.of_nat r) (2 * r + 1) = 0).
    { set (F := fun k => IZR k * w k). assert (Q : zsum (fun k => F (- k)%Z) (- Z.of_nat r) (2 * r + 1) = zsum F (- Z.of_nat r) (2 * r + 1)). { rewrite zsum_mirror. f_equal. lia. }
      rewrite (zsum_ext _ (fun k => (-1) * F k)) in Q. { rewrite zsum_scal in Q. lra. } intros k _. unfold F. rewrite S, opp_IZR. ring. }
    rewrite Z0, (H i); trivial; [ring|]. rewrite Rminus_diag_eq, Rabs_R0 by trivial. lra.
  - intros k K. unfold pick. rewrite refl_in by lia. rewrite H.
    + rewrite INR_IZR_INZ, Z2Nat.id by lia. rewrite plus_IZR, <- INR_IZR_INZ. unfold w. ring.
    + rewrite INR_IZR_INZ, Z2Nat.id by lia. rewrite plus_IZR, <- INR_IZR_INZ. replace (INR i + IZR k - INR i) with (IZR k) by ring. apply Rle_trans with (INR r); [|lra]. rewrite INR_IZR_INZ. apply Rabs_le. rewrite <- opp_IZR. split; apply IZR_le; lia.
    + lia.
Qed.
Theorem boxcar_moves_refuted : exists s f e, sflux s = map INR (seq 0 7) /\ smooth s 2 (Some "boxcar"%string) false = (s, Ok (f, e)) /\ nth 3 f 0 = nth 3 (sflux s) 0 - 1 / 2.
Proof.
  set (s := Spec [] (map INR (seq 0 7)) [] UAng None None 0). destruct (boxcar_mean s 2 false 3) as (s' & f & e & E & N); [lia|cbn; lia|]. replace (INR 2) with 2 in E by (simpl; lra).
  pose proof (smooth_replaces s 2 (Some "boxcar"%string) false) as R. rewrite E in R. destruct R as (-> & _). exists s, f, e. split; [reflexivity|]. split; [exact E|]. rewrite N. cbn. lra.
Qed.
Theorem boxcar_total_refuted : exists s f e, smooth s 1 (Some "boxcar"%string) false = (s, Ok (f, e)) /\ total f <> total (sflux s).
Proof.
  set (s := Spec [] [1; 0] [] UAng None None 0). exists s, [1; 1 / 2], []. split; [|cbn; lra]. unfold smooth. change ("boxcar" =? "gaussian")%string with false. change ("boxcar" =? "boxcar")%string with true. cbv iota.
  replace (2 * 1) with (IZR 2) by lra. rewrite rfloor_IZR. unfold uniform_filter1d. change (2 <? 1)%Z with false. cbv iota. unfold s; cbn [sflux serr]. unfold correlate, pick. cbn [List.length seq map].
  change (- (2 / 2))%Z with (-1)%Z. change (Z.to_nat 2) with 2%nat. cbn [zsum]. change (refl 2 (Z.of_nat 0 + -1)) with 0%nat. change (refl 2 (Z.of_nat 0 + (-1 + 1))) with 0%nat. change (refl 2 (Z.of_nat 1 + -1)) with 0%nat. change (refl 2 (Z.of_nat 1 + (-1 + 1))) with 1%nat. cbn [nth].
  assert (F1 : forall a b c d : R, a = c -> b = d -> (s, Ok ([a; b], [])) = (s, Ok ([c; d], @nil R)) :> spectrum * @res (list R * list R)) by (now intros ? ? ? ? -> ->). apply F1; lra.
Qed.
Theorem uniform_refuted s width rep : smooth s width (Some "uniform"%string) rep = (s, Raise ValueError).
Proof. reflexivity. Qed.
