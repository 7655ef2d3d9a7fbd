(** * ZfProof: redshifts by fits of templates (C113) *)
From Coq Require Import List Bool Reals Lra Lia ZArith Arith.
From Verif Require Import PyBase AlgModel AlgClip SpecLineModel SpecLines PcaModel PcaProof ZfModel.
Import ListNotations.
Open Scope R_scope.

(** ** Specification *)
(** numpy.linalg: inv gives a right inverse if it gives anything; the coefficients from pinv have the least sum of squared residuals *)
Definition inv_ok (inv : inverter) : Prop := forall p M B, inv p M = Some B -> forall j k, (j < p)%nat -> (k < p)%nat -> total_to p (fun c => M j c * B c k) = unit_ j k.
Definition pinv_ok (pinv : pinvfit) : Prop := forall m p A v c,
  total_to m (fun i => (v i - total_to p (fun t => A i t * pinv m p A v t)) * (v i - total_to p (fun t => A i t * pinv m p A v t))) <= total_to m (fun i => (v i - total_to p (fun t => A i t * c t)) * (v i - total_to p (fun t => A i t * c t))).
(** pixel [k] of the templates added with the coefficients [c] *)
Definition mix (templates : list (list R)) (c : list R) (k : nat) : R := total_to (List.length templates) (fun t => nth t c 0 * nth k (nth t templates []) 0).
(** at lag [l], pixel [j] of the spectrum is compared with pixel [j - l] of the templates *)
Definition source (l : Z) (j : nat) : nat := Z.to_nat (Z.of_nat j - l).
(** the pixels of the spectrum for which that exists *)
Definition seen (n : nat) (l : Z) : list nat := filter (fun j => (l <=? Z.of_nat j)%Z && (Z.of_nat j - l <? Z.of_nat n)%Z) (seq 0 n).
Definition total_over (js : list nat) (f : nat -> R) : R := fold_right Rplus 0 (map f js).
Definition sq (x : R) : R := x * x.
(** sum of the squared residuals of the coefficients [c] at lag [l] with weights *)
Definition misfit (templates : list (list R)) (flux : list R) (weight : nat -> R) (l : Z) (c : list R) : R :=
  total_over (seen (List.length flux) l) (fun j => weight j * sq (nth j flux 0 - mix templates c (source l j))).
Definition proper (x flux ivar : list R) (templates : list (list R)) (lags : list Z) : Prop :=
  let n := List.length flux in List.length x = n /\ List.length ivar = n /\ templates <> [] /\ List.length templates <> n /\ (forall t, In t templates -> List.length t = n) /\
  (forall l, In l lags -> (Z.abs l < Z.of_nat n)%Z) /\ lags <> [].
Definition all_equal (l : list R) : Prop := forall a b, In a l -> In b l -> a = b.
Definition used (ivar : list R) : nat := List.length (filter (fun u => negb (req u 0)) ivar).

(** ** Sums *)
Lemma seen_seq n l : (Z.abs l < Z.of_nat n)%Z -> seen n l = seq (off_s l) (shared n l).
Proof.
  intros L. unfold seen, off_s, shared. assert (G : forall a b, filter (fun j => (l <=? Z.of_nat j)%Z && (Z.of_nat j - l <? Z.of_nat n)%Z) (seq a b) = seq (Nat.max a (Z.to_nat l)) (Nat.min (a + b) (Z.to_nat (Z.of_nat n + l)) - Nat.max a (Z.to_nat l))).
  { intros a b. revert a. induction b as [|b I]; intros a.
    - cbn [seq filter]. replace (Nat.min (a + 0) (Z.to_nat (Z.of_nat n + l)) - Nat.max a (Z.to_nat l))%nat with 0%nat by lia. reflexivity.
    - cbn [seq filter]. rewrite I. destruct (Z.leb_spec l (Z.of_nat a)) as [H|H]; cbn [andb].
      + destruct (Z.ltb_spec (Z.of_nat a - l) (Z.of_nat n)) as [K|K].
        * replace (Nat.min (a + S b) (Z.to_nat (Z.of_nat n + l)) - Nat.max a (Z.to_nat l))%nat with (S (Nat.min (S a + b) (Z.to_nat (Z.of_nat n + l)) - Nat.max (S a) (Z.to_nat l)))%nat by lia. cbn [seq]. f_equal; [lia|]. f_equal. lia.
        * replace (Nat.min (a + S b) (Z.to_nat (Z.of_nat n + l)) - Nat.max a (Z.to_nat l))%nat with 0%nat by lia. replace (Nat.min (S a + b) (Z.to_nat (Z.of_nat n + l)) - Nat.max (S a) (Z.to_nat l))%nat with 0%nat by lia. reflexivity.
      + f_equal; lia. }
  rewrite G. f_equal; lia.
Qed.
Lemma total_over_seq a m f : total_over (seq a m) f = total_to m (fun i => f (a + i)%nat).
Proof.
  unfold total_over. induction m as [|m I]; [reflexivity|]. rewrite seq_S, map_app, fold_right_app. cbn [map fold_right total_to]. rewrite <- I. clear I. generalize (map f (seq a m)). intros k. rewrite Rplus_0_r. induction k as [|y k J]; cbn [fold_right]; [ring|rewrite J; ring].
Qed.
Lemma source_off l i : source l (off_s l + i) = (off_t l + i)%nat.
Proof. unfold source, off_s, off_t. lia. Qed.
Lemma seen_total n l f : (Z.abs l < Z.of_nat n)%Z -> total_over (seen n l) f = total_to (shared n l) (fun i => f (off_s l + i)%nat).
Proof. intros L. now rewrite seen_seq, total_over_seq. Qed.
Lemma map_seen {A} n l (f : nat -> A) : (Z.abs l < Z.of_nat n)%Z -> map f (seen n l) = map (fun i => f (off_s l + i)%nat) (seq 0 (shared n l)).
Proof.
  intros L. rewrite seen_seq by trivial. generalize (shared n l) as m. intros m. replace (seq (off_s l) m) with (map (fun i => (off_s l + i)%nat) (seq 0 m)); [now rewrite map_map|]. generalize (off_s l) as a. clear. induction m as [|m I]; intros a; trivial. rewrite !seq_S, map_app. cbn [map Nat.add]. now rewrite I.
Qed.
Lemma total_zero m (f : nat -> R) : (forall i, (i < m)%nat -> 0 <= f i) -> total_to m f = 0 -> forall i, (i < m)%nat -> f i = 0.
Proof. intros P Z i I. destruct (Rle_lt_or_eq_dec 0 (f i) (P i I)) as [L|<-]; trivial. pose proof (tt_pos m f i P I L). lra. Qed.

(** ** Least squares *)
(** coefficients that solve the normal equations have the least weighted misfit *)
Lemma normal_least m p (A : matrix) (w v c c' : nat -> R) : (forall i, (i < m)%nat -> 0 <= w i) ->
  (forall u, (u < p)%nat -> total_to m (fun i => A i u * w i * (v i - total_to p (fun t => A i t * c t))) = 0) ->
  total_to m (fun i => w i * sq (v i - total_to p (fun t => A i t * c t))) <= total_to m (fun i => w i * sq (v i - total_to p (fun t => A i t * c' t))).
Proof.
  intros W N. set (r := fun i => v i - total_to p (fun t => A i t * c t)). set (d := fun i => total_to p (fun t => A i t * (c' t - c t))).
  assert (E : total_to m (fun i => w i * sq (v i - total_to p (fun t => A i t * c' t))) = total_to m (fun i => w i * sq (r i)) - 2 * total_to m (fun i => w i * r i * d i) + total_to m (fun i => w i * sq (d i))).
  { rewrite <- tt_lin, <- tt_minus, <- tt_plus. apply tt_ext. intros i _. replace (v i - total_to p (fun t => A i t * c' t)) with (r i - d i); [unfold sq; ring|]. unfold r, d. rewrite (tt_ext p (fun t => A i t * (c' t - c t)) (fun t => A i t * c' t - A i t * c t)) by (intros; ring). rewrite tt_minus. ring. }
  assert (Z : total_to m (fun i => w i * r i * d i) = 0).
  { rewrite (tt_ext m _ (fun i => total_to p (fun t => (c' t - c t) * (A i t * w i * r i)))). 2:{ intros i _. unfold d. rewrite <- tt_lin. apply tt_ext. intros; ring. }
    rewrite tt_swap. apply tt_zero. intros t T. rewrite tt_lin. unfold r. rewrite N by trivial. ring. }
  rewrite E, Z. assert (0 <= total_to m (fun i => w i * sq (d i))). { apply tt_nonneg. intros i I. apply Rmult_le_pos; [now apply W|apply Rle_0_sqr]. } unfold r at 1. lra.
Qed.
Lemma inverse_normal m p (A : matrix) (w v : nat -> R) B : (forall j k, (j < p)%nat -> (k < p)%nat -> total_to p (fun c => total_to m (fun i => A i j * w i * A i c) * B c k) = unit_ j k) ->
  let c := fun t => total_to p (fun u => B t u * total_to m (fun i => A i u * w i * v i)) in
  forall u, (u < p)%nat -> total_to m (fun i => A i u * w i * (v i - total_to p (fun t => A i t * c t))) = 0.
Proof.
  intros I c u U. set (y := fun u => total_to m (fun i => A i u * w i * v i)).
  rewrite (tt_ext m _ (fun i => A i u * w i * v i - total_to p (fun t => A i u * w i * A i t * c t))). 2:{ intros i _. rewrite Rmult_minus_distr_l. f_equal. rewrite <- tt_lin. apply tt_ext. intros; ring. }
  rewrite tt_minus. change (y u - total_to m (fun i => total_to p (fun t => A i u * w i * A i t * c t)) = 0). rewrite tt_swap.
  rewrite (tt_ext p _ (fun t => total_to p (fun k => total_to m (fun i => A i u * w i * A i t) * B t k * y k))).
  2:{ intros t _. rewrite (tt_ext m _ (fun i => c t * (A i u * w i * A i t))) by (intros; ring). rewrite tt_lin. unfold c. rewrite Rmult_comm, <- tt_lin. apply tt_ext. intros k _. unfold y. ring. }
  rewrite tt_swap. rewrite (tt_ext p _ (fun k => unit_ u k * y k)). 2:{ intros k K. rewrite <- (I u k U K). rewrite (Rmult_comm _ (y k)), <- tt_lin. apply tt_ext. intros; ring. }
  rewrite tt_unit' by trivial. ring.
Qed.

(** ** One lag *)
(** the fit [f] of the given templates at its lag: where it is, what it adds up to, how well it fits *)
Definition describes (x flux ivar : list R) (templates : list (list R)) (f : fitted) : Prop :=
  let n := List.length flux in let l := f_lag f in
  List.length (f_coeff f) = List.length templates /\ f_x f = map (fun j => nth j x 0) (seen n l) /\ f_flux f = map (fun j => mix templates (f_coeff f) (source l j)) (seen n l) /\
  f_rchi2 f = misfit templates flux (fun _ => 1) l (f_coeff f) / (INR (used ivar) - IZR (Z.abs l)).
Definition least_misfit (templates : list (list R)) (flux : list R) (weight : nat -> R) (f : fitted) : Prop :=
  forall c, List.length c = List.length templates -> misfit templates flux weight (f_lag f) (f_coeff f) <= misfit templates flux weight (f_lag f) c.
Lemma nth_map_seq {A} (d : A) f p t : (t < p)%nat -> nth t (map f (seq 0 p)) d = f t.
Proof. intros T. rewrite (nth_indep _ d (f 0%nat)) by (rewrite map_length, seq_length; lia). rewrite map_nth, seq_nth by lia. reflexivity. Qed.
Lemma misfit_total templates flux weight l c : (Z.abs l < Z.of_nat (List.length flux))%Z -> misfit templates flux weight l c =
  total_to (shared (List.length flux) l) (fun i => weight (off_s l + i)%nat * sq (nth (off_s l + i)%nat flux 0 - total_to (List.length templates) (fun t => nth (off_t l + i)%nat (nth t templates []) 0 * nth t c 0))).
Proof.
  intros L. unfold misfit. rewrite seen_total by trivial. apply tt_ext. intros i _. unfold mix. rewrite source_off. do 2 f_equal. f_equal. apply tt_ext. intros; ring.
Qed.
Lemma firstn_skipn_map (x : list R) a m : (a + m <= List.length x)%nat -> firstn m (skipn a x) = map (fun i => nth (a + i)%nat x 0) (seq 0 m).
Proof.
  revert x a. induction m as [|m I]; intros x a L; trivial. destruct (skipn a x) as [|y r] eqn:E. { apply (f_equal (@List.length R)) in E. rewrite skipn_length in E. cbn in E. lia. }
  cbn [firstn seq map]. assert (Ey : y = nth (a + 0) x 0). { rewrite Nat.add_0_r. assert (nth 0 (skipn a x) 0 = nth (a + 0) x 0) as Y. { clear. revert x. induction a as [|a I]; intros [|z x]; trivial. cbn [skipn]. apply I. } rewrite E, Nat.add_0_r in Y. exact Y. }
  f_equal; [exact Ey|]. assert (Er : r = skipn (S a) x). { change r with (tl (y :: r)). rewrite <- E. clear. revert x. induction a as [|a I]; intros [|z x]; trivial. cbn [skipn]. apply I. }
  rewrite Er, I by lia. rewrite <- seq_shift, map_map. apply map_ext. intros i. f_equal. lia.
Qed.
Lemma fit_lag_spec inv pinv uw x flux ivar templates l : inv_ok inv -> pinv_ok pinv -> List.length x = List.length flux -> List.length ivar = List.length flux -> (Z.abs l < Z.of_nat (List.length flux))%Z ->
  exists f, fit_lag inv pinv uw x flux ivar (List.length templates) (fun i j => nth i (nth j templates []) 0) l = Ok f /\ f_lag f = l /\ describes x flux ivar templates f /\
    (uw = false -> least_misfit templates flux (fun _ => 1) f) /\
    ((forall u, In u ivar -> 0 <= u) -> least_misfit templates flux (fun j => nth j ivar 0) f \/ least_misfit templates flux (fun _ => 1) f) /\
    f_z f = (let zs := lag_to_z true x l in if existsb (fun z => match z with None => true | Some _ => false end) zs then None else Some (sum (List.length zs) (fun i => match nth i zs None with Some z => z | None => 0 end) / INR (List.length zs))).
Proof.
  intros Hi Hp Lx Li L. unfold fit_lag. set (n := List.length flux) in *. set (m := shared n l). assert (Nm : Nat.eqb m 0 = false). { apply Nat.eqb_neq. unfold m, shared. lia. } rewrite Nm.
  set (A := fun i t : nat => nth (off_t l + i)%nat (nth t templates []) 0). set (v := fun i => nth (off_s l + i)%nat flux 0). set (w := fun i => nth (off_s l + i)%nat ivar 0). set (p := List.length templates) in *.
  set (c := match (if uw then inv p (fun t u => sum m (fun i => A i t * w i * A i u)) else None) with Some B => fun t => sum p (fun u => B t u * sum m (fun i => A i u * w i * v i)) | None => pinv m p A v end).
  exists (Fit l (let zs := lag_to_z true x l in if existsb (fun z => match z with None => true | Some _ => false end) zs then None else Some (sum (List.length zs) (fun i => match nth i zs None with Some z => z | None => 0 end) / INR (List.length zs)))
    (map c (seq 0 p)) (firstn m (skipn (off_s l) x)) (map (fun i => sum p (fun t => A i t * c t)) (seq 0 m))
    (sum m (fun i => (v i - sum p (fun t => A i t * c t)) * (v i - sum p (fun t => A i t * c t))) / IZR (Z.of_nat (List.length (filter (fun u => negb (req u 0)) ivar)) - Z.abs l))).
  split; [reflexivity|]. split; [reflexivity|]. cbn [f_lag f_z].
  assert (Cn : forall t, (t < p)%nat -> nth t (map c (seq 0 p)) 0 = c t) by (intros; now apply nth_map_seq).
  assert (Mf : forall wt, misfit templates flux wt l (map c (seq 0 p)) = total_to m (fun i => wt (off_s l + i)%nat * sq (v i - total_to p (fun t => A i t * c t)))).
  { intros wt. rewrite misfit_total by exact L. apply tt_ext. intros i _. do 2 f_equal. unfold v. f_equal. apply tt_ext. intros t T. fold p in T. rewrite Cn by trivial. reflexivity. }
  assert (Pm : forall c', total_to m (fun i => 1 * sq (v i - total_to p (fun t => A i t * pinv m p A v t))) <= total_to m (fun i => 1 * sq (v i - total_to p (fun t => A i t * c' t)))).
  { intros c'. rewrite (tt_ext m (fun i => 1 * sq (v i - total_to p (fun t => A i t * pinv m p A v t))) (fun i => (v i - total_to p (fun t => A i t * pinv m p A v t)) * (v i - total_to p (fun t => A i t * pinv m p A v t)))) by (intros; unfold sq; ring).
    rewrite (tt_ext m (fun i => 1 * sq (v i - total_to p (fun t => A i t * c' t))) (fun i => (v i - total_to p (fun t => A i t * c' t)) * (v i - total_to p (fun t => A i t * c' t)))) by (intros; unfold sq; ring). apply Hp. }
  repeat split.
  - cbn [f_coeff]. now rewrite map_length, seq_length.
  - cbn [f_x f_lag]. fold n. rewrite map_seen by exact L. apply firstn_skipn_map. rewrite Lx. unfold off_s, shared. lia.
  - cbn [f_flux f_lag f_coeff]. fold n. rewrite map_seen by exact L. apply map_ext. intros i. rewrite sum_total. unfold mix. rewrite source_off. apply tt_ext. intros t T. fold p in T. rewrite Cn by trivial. unfold A. cbv beta. apply Rmult_comm.
  - cbn [f_rchi2 f_lag f_coeff]. rewrite Mf. f_equal; [|unfold used; now rewrite minus_IZR, <- INR_IZR_INZ]. rewrite sum_total. apply tt_ext. intros i _. rewrite !sum_total. unfold sq. ring.
  - intros ->. unfold least_misfit. cbn [f_lag f_coeff]. intros c' _. rewrite Mf, misfit_total by exact L. fold n m p v. unfold c. apply (Pm (fun t => nth t c' 0)).
  - intros W. assert (W' : forall i, (i < m)%nat -> 0 <= w i). { intros i I. unfold w. apply W. apply nth_In. rewrite Li. unfold m, shared, off_s in *. lia. }
    assert (Lp : c = pinv m p A v -> least_misfit templates flux (fun _ => 1) (Fit l None (map c (seq 0 p)) [] [] 0)).
    { intros Ec. unfold least_misfit. cbn [f_lag f_coeff]. intros c' _. rewrite Mf, misfit_total by exact L. fold n m p v. rewrite Ec. apply (Pm (fun t => nth t c' 0)). }
    unfold least_misfit in *. cbn [f_lag f_coeff] in *. destruct uw; [|right; now apply Lp]. destruct (inv p (fun t u => sum m (fun i => A i t * w i * A i u))) as [B|] eqn:EB; [|right; now apply Lp].
    left. intros c' _. rewrite Mf, misfit_total by exact L. fold n m p. apply (normal_least m p A w v c (fun t => nth t c' 0) W'). 
    assert (Ec : forall t, c t = total_to p (fun u => B t u * total_to m (fun i => A i u * w i * v i))). { intros t. unfold c. rewrite sum_total. apply tt_ext. intros u _. now rewrite sum_total. }
    intros u U. rewrite <- (inverse_normal m p A w v B) with (u := u); trivial.
    + apply tt_ext. intros i _. do 2 f_equal. apply tt_ext. intros t _. now rewrite Ec.
    + intros j k J K. rewrite <- (Hi p _ B EB j k J K). apply tt_ext. intros q _. now rewrite sum_total.
Qed.

(** ** All lags *)
Theorem lags_same lags l : In l (lag_order lags) <-> In l lags.
Proof.
  unfold lag_order. rewrite !in_app_iff, !filter_In, Z.ltb_lt, Z.ltb_lt. destruct (existsb (Z.eqb 0) lags) eqn:E.
  - apply existsb_exists in E. destruct E as (z & Hz & Ez). apply Z.eqb_eq in Ez. subst z. cbn [In]. split; [intros [H|[[<-|[]]|H]]; trivial; apply H|]. intros H. destruct (Z.lt_trichotomy l 0) as [K|[K|K]]; auto.
  - cbn [In]. split; [intros [H|[[]|H]]; apply H|]. intros H. destruct (Z.lt_trichotomy l 0) as [K|[K|K]]; auto. subst. exfalso. assert (existsb (Z.eqb 0) lags = true); [|congruence]. apply existsb_exists. exists 0%Z. split; trivial.
Qed.
(** for a range they are tried from the lower end on *)
Lemma order_range n : forall lo, lag_order (map (fun i => (lo + Z.of_nat i)%Z) (seq 0 n)) = map (fun i => (lo + Z.of_nat i)%Z) (seq 0 n).
Proof.
  induction n as [|n I]; intros lo; trivial. cbn [seq map]. rewrite <- seq_shift, map_map.
  rewrite (map_ext (fun i => (lo + Z.of_nat (S i))%Z) (fun i => (lo + 1 + Z.of_nat i)%Z)) by (intros; lia). specialize (I (lo + 1)%Z). set (r := map (fun i => (lo + 1 + Z.of_nat i)%Z) (seq 0 n)) in *.
  assert (Hr : forall z, In z r -> (lo < z)%Z). { intros z Z. apply in_map_iff in Z. destruct Z as (i & <- & _). lia. } replace (lo + Z.of_nat 0)%Z with lo by lia.
  assert (Pos : (0 <= lo)%Z -> filter (fun l => (l <? 0)%Z) r = [] /\ existsb (Z.eqb 0) r = false /\ filter (fun l => (0 <? l)%Z) r = r).
  { intros P. clear - Hr P. induction r as [|z r I]; [auto|]. destruct I as (I1 & I2 & I3); [intros; apply Hr; now right|]. specialize (Hr z (or_introl eq_refl)). cbn [filter existsb]. destruct (Z.ltb_spec z 0); [lia|]. destruct (Z.eqb_spec 0 z); [lia|]. destruct (Z.ltb_spec 0 z); [|lia]. rewrite I1, I2, I3. auto. }
  unfold lag_order in *. cbn [filter existsb]. destruct (Z.ltb_spec lo 0) as [N|N].
  - destruct (Z.eqb_spec 0 lo); [lia|]. destruct (Z.ltb_spec 0 lo); [lia|]. cbn [orb app]. now rewrite I.
  - destruct (Pos N) as (-> & -> & ->). destruct (Z.eqb_spec 0 lo) as [<-|]; [reflexivity|]. destruct (Z.ltb_spec 0 lo); [reflexivity|lia].
Qed.
Theorem lags_range lo hi : (lo <= hi)%Z -> let l := lag_order (lag_list (LagRange lo hi)) in Z.of_nat (List.length l) = (hi - lo)%Z /\ forall k, (k < List.length l)%nat -> nth k l 0%Z = (lo + Z.of_nat k)%Z.
Proof.
  intros H l. assert (E : l = map (fun i => (lo + Z.of_nat i)%Z) (seq 0 (Z.to_nat (hi - lo)))) by apply order_range. rewrite E, map_length, seq_length. split; [lia|]. intros k K.
  rewrite (nth_indep _ 0%Z (lo + Z.of_nat 0)%Z) by now rewrite map_length, seq_length. rewrite (map_nth (fun i => (lo + Z.of_nat i)%Z)). now rewrite seq_nth.
Qed.
Lemma all_ok_spec {A B} (f : A -> @res B) l : (forall a, In a l -> exists b, f a = Ok b) -> exists bs, all_ok f l = Ok bs /\ Forall2 (fun a b => f a = Ok b) l bs.
Proof.
  induction l as [|a l I]; intros H; [exists []; split; [reflexivity|constructor]|]. destruct (H a (or_introl eq_refl)) as (b & E). destruct I as (bs & Eb & F); [intros; apply H; now right|]. exists (b :: bs). cbn [all_ok]. rewrite E, Eb. split; [reflexivity|now constructor].
Qed.
Lemma fold_min r : forall a, (forall y, In y (a :: r) -> fold_left Rmin r a <= y) /\ In (fold_left Rmin r a) (a :: r).
Proof.
  induction r as [|b r I]; intros a; cbn [fold_left]; [split; [intros y [<-|[]]; lra|now left]|]. destruct (I (Rmin a b)) as (H & K). split.
  - assert (M : fold_left Rmin r (Rmin a b) <= Rmin a b) by (apply H; now left). pose proof (Rmin_l a b). pose proof (Rmin_r a b). intros y [<-|[<-|Y]]; [lra|lra|apply H; now right].
  - destruct K as [<-|K]; [|now (right; right)]. unfold Rmin; destruct (Rle_dec a b); [now left|right; now left].
Qed.
Lemma tmatrix_proper x flux ivar templates lags : proper x flux ivar templates lags -> tmatrix (List.length flux) templates = Ok (List.length templates, fun i j => nth i (nth j templates []) 0).
Proof.
  intros (_ & _ & Nt & Nn & Lt & _). unfold tmatrix. destruct templates as [|t r]; [congruence|]. destruct (Nat.eqb_spec (List.length (t :: r)) (List.length flux)); [contradiction|]. rewrite (Lt t) by now left. now rewrite Nat.eqb_refl.
Qed.
Definition best_of (best : list nat) (fs : list fitted) : Prop := best <> [] /\
  forall k, In k best <-> exists f, nth_error fs k = Some f /\ forall g, In g fs -> f_rchi2 f <= f_rchi2 g.
Lemma req_spec x y : req x y = true <-> x = y.
Proof. unfold req. destruct (Req_EM_T x y); split; congruence. Qed.
Lemma zfind_core inv pinv x flux ivar templates lags : inv_ok inv -> pinv_ok pinv -> proper x flux ivar templates (lag_list lags) ->
  exists best fs uw, zfind inv pinv x flux ivar templates lags = Ok (best, fs) /\ (uw = false <-> all_equal ivar) /\
    Forall2 (fun l f => fit_lag inv pinv uw x flux ivar (List.length templates) (fun i j => nth i (nth j templates []) 0) l = Ok f) (lag_order (lag_list lags)) fs /\ best_of best fs.
Proof.
  intros Hi Hp P. pose proof P as (Lx & Li & Nt & Nn & Lt & Ll & Ne). unfold zfind. rewrite (tmatrix_proper x flux ivar templates (lag_list lags) P).
  assert (Np : (0 < List.length flux)%nat). { destruct (lag_list lags) as [|l ls]; [congruence|]. specialize (Ll l (or_introl eq_refl)). lia. }
  destruct ivar as [|i0 iv] eqn:Ei; [cbn in Li; lia|]. rewrite <- Ei in *. set (uw := existsb (fun u => negb (req (u - i0) 0)) ivar).
  destruct (all_ok_spec (fit_lag inv pinv uw x flux ivar (List.length templates) (fun i j => nth i (nth j templates []) 0)) (lag_order (lag_list lags))) as (fs & Ef & F).
  { intros l H. apply lags_same, Ll in H. destruct (fit_lag_spec inv pinv uw x flux ivar templates l Hi Hp Lx Li H) as (f & E & _). eauto. }
  rewrite Ef. assert (Nf : fs <> []). { intros ->. inversion F as [E|]. destruct (lag_list lags) as [|l ls] eqn:El; [congruence|]. assert (In l (lag_order (l :: ls))) as H by (apply lags_same; now left). rewrite <- E in H. contradiction. }
  destruct fs as [|f0 fr] eqn:Es; [congruence|]. cbn [map least]. pose proof (fold_min (map f_rchi2 fr) (f_rchi2 f0)) as (M1 & M2). set (mn := fold_left Rmin (map f_rchi2 fr) (f_rchi2 f0)) in *.
  change (f_rchi2 f0 :: map f_rchi2 fr) with (map f_rchi2 (f0 :: fr)) in *. rewrite <- Es in *. eexists _, fs, uw. split; [reflexivity|]. split; [|split; [exact F|]].
  - unfold uw. split.
    + intros E a b A B. assert (G : forall u, In u ivar -> u = i0). { intros u U. destruct (Req_dec (u - i0) 0); [lra|]. exfalso. assert (existsb (fun u => negb (req (u - i0) 0)) ivar = true); [|congruence]. apply existsb_exists. exists u. split; trivial. destruct (req (u - i0) 0) eqn:R; trivial. apply req_spec in R. contradiction. } now rewrite (G a A), (G b B).
    + intros E. destruct (existsb (fun u => negb (req (u - i0) 0)) ivar) eqn:X; trivial. apply existsb_exists in X. destruct X as (u & U & N). assert (u = i0) as ->. { apply E; trivial. rewrite Ei. now left. } unfold req in N. destruct (Req_EM_T (i0 - i0) 0); [discriminate|lra].
  - assert (G : forall k, In k (filter (fun k => req (nth k (map f_rchi2 fs) 0) mn) (seq 0 (List.length fs))) <-> exists f, nth_error fs k = Some f /\ forall g, In g fs -> f_rchi2 f <= f_rchi2 g).
    { intros k. rewrite filter_In, in_seq, req_spec. split.
      - intros (K & E). destruct (nth_error fs k) as [f|] eqn:N; [|apply nth_error_None in N; lia]. exists f. split; trivial. rewrite (nth_indep _ 0 (f_rchi2 f)), (map_nth f_rchi2) in E by (rewrite map_length; lia). rewrite (nth_error_nth _ _ f N) in E. rewrite E. intros g G. apply M1. now apply in_map.
      - intros (f & N & H). assert (k < List.length fs)%nat by (apply nth_error_Some; congruence). split; [lia|]. rewrite (nth_indep _ 0 (f_rchi2 f)), (map_nth f_rchi2) by (rewrite map_length; lia). rewrite (nth_error_nth _ _ f N).
        apply in_map_iff in M2. destruct M2 as (g & Eg & G). apply Rle_antisym; [rewrite <- Eg; now apply H|]. apply M1. apply in_map. now apply nth_error_In in N. }
    split; [|exact G]. apply in_map_iff in M2. destruct M2 as (g & Eg & Ig). apply In_nth_error in Ig. destruct Ig as (k & K). intros E. assert (In k []) as []. rewrite <- E. apply G. exists g. split; trivial. intros h H. rewrite Eg. apply M1. now apply in_map.
Qed.
(** what is returned *)
Theorem zfind_result inv pinv x flux ivar templates lags : inv_ok inv -> pinv_ok pinv -> proper x flux ivar templates (lag_list lags) ->
  exists best fs, zfind inv pinv x flux ivar templates lags = Ok (best, fs) /\ map f_lag fs = lag_order (lag_list lags) /\ best_of best fs /\
    forall f, In f fs -> describes x flux ivar templates f /\ (all_equal ivar -> least_misfit templates flux (fun _ => 1) f) /\
      ((forall u, In u ivar -> 0 <= u) -> least_misfit templates flux (fun j => nth j ivar 0) f \/ least_misfit templates flux (fun _ => 1) f).
Proof.
  intros Hi Hp P. destruct (zfind_core inv pinv x flux ivar templates lags Hi Hp P) as (best & fs & uw & E & U & F & B). pose proof P as (Lx & Li & Nt & Nn & Lt & Ll & Ne).
  assert (Lo : forall l, In l (lag_order (lag_list lags)) -> (Z.abs l < Z.of_nat (List.length flux))%Z) by (intros l H; apply Ll; now apply lags_same).
  exists best, fs. split; trivial. split; [|split; trivial].
  - clear - F Lo Hi Hp Lx Li. induction F as [|l f ls fs E F I]; trivial. cbn [map]. rewrite I by (intros; apply Lo; now right). f_equal. destruct (fit_lag_spec inv pinv uw x flux ivar templates l Hi Hp Lx Li) as (f' & E' & El & _); [apply Lo; now left|]. congruence.
  - intros f H. assert (exists l, In l (lag_order (lag_list lags)) /\ fit_lag inv pinv uw x flux ivar (List.length templates) (fun i j => nth i (nth j templates []) 0) l = Ok f) as (l & L & El).
    { clear - F H. induction F as [|l g ls fs E F I]; [contradiction|]. destruct H as [<-|H]; [exists l; split; trivial; now left|]. destruct (I H) as (l' & A & B). exists l'. split; trivial. now right. }
    destruct (fit_lag_spec inv pinv uw x flux ivar templates l Hi Hp Lx Li (Lo l L)) as (f' & E' & _ & D & W1 & W2 & _). assert (f' = f) as -> by congruence. split; trivial. split; [|exact W2]. intros A. apply W1. now apply U.
Qed.
(** ** Consequences *)
(** with equal errors no lag and no coefficients fit better per pixel than the best *)
Lemma used_all ivar : (forall u, In u ivar -> u <> 0) -> used ivar = List.length ivar.
Proof. intros H. unfold used. induction ivar as [|u l I]; trivial. cbn [filter]. destruct (req u 0) eqn:E; [apply req_spec in E; exfalso; apply (H u); [now left|exact E]|]. cbn [negb List.length]. rewrite I; trivial. intros; apply H; now right. Qed.
Theorem best_over_all inv pinv x flux ivar templates lags best fs k f : inv_ok inv -> pinv_ok pinv -> proper x flux ivar templates (lag_list lags) -> all_equal ivar -> (forall u, In u ivar -> 0 < u) ->
  zfind inv pinv x flux ivar templates lags = Ok (best, fs) -> In k best -> nth_error fs k = Some f ->
  forall l c, In l (lag_list lags) -> List.length c = List.length templates -> f_rchi2 f <= misfit templates flux (fun _ => 1) l c / (INR (List.length flux) - IZR (Z.abs l)).
Proof.
  intros Hi Hp P A W E K N l c L Lc. destruct (zfind_result inv pinv x flux ivar templates lags Hi Hp P) as (best' & fs' & E' & Ml & (_ & B) & D). rewrite E in E'. injection E' as <- <-. pose proof P as (Lx & Li & Nt & Nn & Lt & Ll & Ne).
  apply B in K. destruct K as (f' & N' & H). assert (f' = f) as -> by congruence. assert (Il : In l (map f_lag fs)) by (rewrite Ml; now apply lags_same). apply in_map_iff in Il. destruct Il as (g & El & G).
  destruct (D g G) as ((_ & _ & _ & R) & W1 & _). apply Rle_trans with (f_rchi2 g); [now apply H|]. rewrite R, El, used_all, Li by (intros u U; specialize (W u U); lra).
  apply Rmult_le_compat_r; [|rewrite <- El; now apply W1]. left. apply Rinv_0_lt_compat. specialize (Ll l L). apply IZR_lt in Ll. rewrite <- INR_IZR_INZ in Ll. lra.
Qed.
(** a spectrum that is the templates at lag [l], exactly *)
Definition exactly_at (flux : list R) (templates : list (list R)) (l : Z) (c : list R) : Prop := forall j, In j (seen (List.length flux) l) -> nth j flux 0 = mix templates c (source l j).
Lemma seen_lt n l j : In j (seen n l) -> (j < n)%nat.
Proof. unfold seen. rewrite filter_In, in_seq. lia. Qed.
Lemma total_over_zero js f : (forall j, In j js -> 0 <= f j) -> total_over js f <= 0 -> forall j, In j js -> f j = 0.
Proof.
  unfold total_over. induction js as [|a js I]; intros P H j J; [contradiction|]. cbn [map fold_right] in H. assert (Pa : 0 <= f a) by (apply P; now left). assert (Pr : 0 <= fold_right Rplus 0 (map f js)). { clear - P. induction js as [|b js I]; cbn; [lra|]. assert (0 <= f b) by (apply P; right; now left). assert (0 <= fold_right Rplus 0 (map f js)); [|lra]. apply I. intros i [<-|Q]; apply P; [now left|now (right; right)]. }
  destruct J as [<-|J]; [lra|]. apply I; trivial; [intros; apply P; now right|lra].
Qed.
Lemma misfit_zero templates flux weight l c : (forall j, (j < List.length flux)%nat -> 0 < weight j) -> (misfit templates flux weight l c <= 0 <-> exactly_at flux templates l c).
Proof.
  intros W. unfold misfit, exactly_at. split.
  - intros H j J. assert (E : weight j * sq (nth j flux 0 - mix templates c (source l j)) = 0). { apply (total_over_zero (seen (List.length flux) l) (fun j => weight j * sq (nth j flux 0 - mix templates c (source l j)))); trivial. intros i I. apply Rmult_le_pos; [left; now apply W, seen_lt in I || (apply W; now apply seen_lt in I)|apply Rle_0_sqr]. }
    assert (0 < weight j) by (apply W; now apply seen_lt in J). apply Rmult_integral in E. destruct E as [E|E]; [lra|]. apply Rsqr_0_uniq in E. lra.
  - intros H. apply Req_le. unfold total_over. assert (G : forall js, (forall j, In j js -> weight j * sq (nth j flux 0 - mix templates c (source l j)) = 0) -> fold_right Rplus 0 (map (fun j => weight j * sq (nth j flux 0 - mix templates c (source l j))) js) = 0). { induction js as [|a js I]; intros Z; trivial. cbn [map fold_right]. rewrite Z by now left. rewrite I by (intros; apply Z; now right). ring. }
    apply G. intros j J. rewrite (H j J). unfold sq. ring.
Qed.
(** a redshifted combination of the templates without noise is found: residual 0, among the best, the flux itself the fit *)
Theorem exact_found inv pinv x flux ivar templates lags best fs l c : inv_ok inv -> pinv_ok pinv -> proper x flux ivar templates (lag_list lags) -> (forall u, In u ivar -> 0 < u) ->
  In l (lag_list lags) -> List.length c = List.length templates -> exactly_at flux templates l c -> zfind inv pinv x flux ivar templates lags = Ok (best, fs) ->
  (forall k f, nth_error fs k = Some f -> (In k best <-> f_rchi2 f = 0)) /\
  (forall f, In f fs -> f_lag f = l -> f_rchi2 f = 0) /\
  (forall f, In f fs -> f_rchi2 f = 0 -> exactly_at flux templates (f_lag f) (f_coeff f) /\ f_flux f = map (fun j => nth j flux 0) (seen (List.length flux) (f_lag f))).
Proof.
  intros Hi Hp P W L Lc X E. destruct (zfind_result inv pinv x flux ivar templates lags Hi Hp P) as (best' & fs' & E' & Ml & (_ & B) & D). rewrite E in E'. injection E' as <- <-. pose proof P as (Lx & Li & Nt & Nn & Lt & Ll & Ne).
  assert (U : used ivar = List.length flux) by (rewrite used_all, Li; trivial; intros u H; specialize (W u H); lra).
  assert (Wn : forall j, (j < List.length flux)%nat -> 0 < nth j ivar 0) by (intros j J; apply W, nth_In; lia).
  assert (Dof : forall f, In f fs -> 0 < INR (List.length flux) - IZR (Z.abs (f_lag f))). { intros f F. assert (H : In (f_lag f) (lag_list lags)). { apply lags_same. rewrite <- Ml. now apply in_map. } specialize (Ll _ H). apply IZR_lt in Ll. rewrite <- INR_IZR_INZ in Ll. lra. }
  assert (Pos : forall l c, 0 <= misfit templates flux (fun _ => 1) l c). { intros l' c'. unfold misfit, total_over. induction (seen (List.length flux) l') as [|j js I]; cbn [map fold_right]; [lra|]. pose proof (Rle_0_sqr (nth j flux 0 - mix templates c' (source l' j))). unfold sq, Rsqr in *. lra. }
  assert (Nn0 : forall f, In f fs -> 0 <= f_rchi2 f). { intros f F. destruct (D f F) as ((_ & _ & _ & R) & _). rewrite R, U. apply Rmult_le_pos; [apply Pos|]. left. now apply Rinv_0_lt_compat, Dof. }
  assert (Zr : forall f, In f fs -> (f_rchi2 f = 0 <-> exactly_at flux templates (f_lag f) (f_coeff f))).
  { intros f F. destruct (D f F) as ((_ & _ & _ & R) & _). specialize (Dof f F). rewrite R, U. rewrite <- (misfit_zero templates flux (fun _ => 1)) by (intros; lra). pose proof (Pos (f_lag f) (f_coeff f)) as Q. split.
    - intros Z. apply Rmult_integral in Z. destruct Z as [-> | Z]; [lra|]. exfalso. apply Rinv_neq_0_compat in Z; trivial. lra.
    - intros Z. replace (misfit templates flux (fun _ => 1) (f_lag f) (f_coeff f)) with 0 by lra. unfold Rdiv. ring. }
  assert (At : forall f, In f fs -> f_lag f = l -> f_rchi2 f = 0).
  { intros f F El. apply Zr; trivial. rewrite El. destruct (D f F) as (_ & _ & LM). assert (W0 : forall u, In u ivar -> 0 <= u) by (intros u H; left; now apply W). destruct (LM W0) as [M|M]; specialize (M c Lc); rewrite El in M.
    - apply (misfit_zero templates flux (fun j => nth j ivar 0)); trivial. apply (misfit_zero templates flux (fun j => nth j ivar 0)) in X; trivial. lra.
    - apply (misfit_zero templates flux (fun _ => 1)); [intros; lra|]. apply (misfit_zero templates flux (fun _ => 1)) in X; [|intros; lra]. lra. }
  split; [|split; [exact At|]].
  - intros k f N. assert (F : In f fs) by now apply nth_error_In in N. assert (exists g, In g fs /\ f_lag g = l) as (g & G & El). { assert (Il : In l (map f_lag fs)) by (rewrite Ml; now apply lags_same). apply in_map_iff in Il. destruct Il as (g & Eg & G). eauto. }
    rewrite B. split.
    + intros (f' & N' & H). assert (f' = f) as -> by congruence. apply Rle_antisym; [|now apply Nn0]. rewrite <- (At g G El). now apply H.
    + intros Z. exists f. split; trivial. intros h H. rewrite Z. now apply Nn0.
  - intros f F Z. apply Zr in Z; trivial. split; trivial. destruct (D f F) as ((_ & _ & Ff & _) & _). rewrite Ff. apply map_ext_in. intros j J. symmetry. now apply Z.
Qed.
(** the redshift: on a logarithmic axis of ratio [r], z = r^l - 1 for every pixel, if no other lag fits exactly *)
Theorem redshift_found inv pinv x flux ivar templates lags l c x0 r : inv_ok inv -> pinv_ok pinv -> proper x flux ivar templates (lag_list lags) -> (forall u, In u ivar -> 0 < u) ->
  NoDup (lag_list lags) -> In l (lag_list lags) -> l <> 0%Z -> List.length c = List.length templates -> exactly_at flux templates l c ->
  (forall l' c', In l' (lag_list lags) -> List.length c' = List.length templates -> exactly_at flux templates l' c' -> l' = l) ->
  0 < r -> x0 <> 0 -> (forall i, (i < List.length x)%nat -> nth i x 0 = x0 * powerRZ r (Z.of_nat i)) ->
  exists k fs f, zfind inv pinv x flux ivar templates lags = Ok ([k], fs) /\ nth_error fs k = Some f /\ f_lag f = l /\ f_z f = Some (powerRZ r l - 1).
Proof.
  intros Hi Hp P W Nd L Nz Lc X Un Hr Hx Gx. destruct (zfind_core inv pinv x flux ivar templates lags Hi Hp P) as (best & fs & uw & E & _ & F & (Nb & B)). destruct (zfind_result inv pinv x flux ivar templates lags Hi Hp P) as (best' & fs' & E' & Ml & _ & D).
  rewrite E in E'. injection E' as <- <-. destruct (exact_found inv pinv x flux ivar templates lags best fs l c Hi Hp P W L Lc X E) as (Bz & At & Ex). pose proof P as (Lx & Li & Nt & Nn & Lt & Ll & Ne).
  assert (Ol : forall k f, In k best -> nth_error fs k = Some f -> f_lag f = l). { intros k f K N. assert (H : In f fs) by now apply nth_error_In in N. apply (Un _ (f_coeff f)); [apply lags_same; rewrite <- Ml; now apply in_map|apply (D f H)|]. apply Ex; trivial. now apply (Bz k f N). }
  assert (No : NoDup (map f_lag fs)). { rewrite Ml. unfold lag_order. assert (G : forall q, NoDup (filter q (lag_list lags))) by (intros; now apply NoDup_filter).
    assert (Ap : forall (a b : list Z), NoDup a -> NoDup b -> (forall z, In z a -> ~ In z b) -> NoDup (a ++ b)). { induction a as [|z a I]; intros b Na Nb' H; trivial. inversion Na; subst. cbn [app]. constructor; [rewrite in_app_iff; intros [Q|Q]; [contradiction|now apply (H z (or_introl eq_refl))]|]. apply I; trivial. intros y Y. apply H. now right. }
    apply Ap; [apply G|apply Ap; [destruct (existsb (Z.eqb 0) (lag_list lags)); repeat constructor; auto|apply G|]|].
    - intros z Z Q. apply filter_In in Q. destruct Q as (_ & Q). apply Z.ltb_lt in Q. destruct (existsb (Z.eqb 0) (lag_list lags)); [destruct Z as [<-|[]]; lia|contradiction].
    - intros z Z Q. apply filter_In in Z. destruct Z as (_ & Z). apply Z.ltb_lt in Z. apply in_app_iff in Q. destruct Q as [Q|Q]; [destruct (existsb (Z.eqb 0) (lag_list lags)); [destruct Q as [<-|[]]; lia|contradiction]|]. apply filter_In in Q. destruct Q as (_ & Q). apply Z.ltb_lt in Q. lia. }
  destruct best as [|k rest]; [congruence|]. assert (exists f, nth_error fs k = Some f) as (f & N). { destruct (proj1 (B k) (or_introl eq_refl)) as (f & N & _). eauto. }
  assert (Nk : forall q, In q (k :: rest) -> q = k). { intros q Q. destruct (proj1 (B q) Q) as (g & Ng & _). pose proof (Ol q g Q Ng) as Eg. pose proof (Ol k f (or_introl eq_refl) N) as Ef. apply (proj1 (NoDup_nth_error (map f_lag fs)) No); [apply nth_error_Some; rewrite nth_error_map, Ng; discriminate|]. rewrite !nth_error_map, Ng, N. cbn. congruence. }
  assert (rest = []) as ->. { unfold zfind in E. rewrite (tmatrix_proper x flux ivar templates (lag_list lags) P) in E. destruct ivar as [|i0 iv]; [discriminate|]. destruct (all_ok _ _) as [fs0| |]; try discriminate. destruct (least (map f_rchi2 fs0)) as [mn|]; [|discriminate]. injection E as Eb _.
    assert (ND : NoDup (k :: rest)). { rewrite <- Eb. apply NoDup_filter, seq_NoDup. } destruct rest as [|q rest]; trivial. inversion ND as [|? ? Ni _]; subst. exfalso. apply Ni. left. now apply Nk; right; left. }
  exists k, fs, f. split; trivial. split; trivial. split; [apply (Ol k f); trivial; now left|].
  assert (H : In f fs) by now apply nth_error_In in N. assert (exists l', fit_lag inv pinv uw x flux ivar (List.length templates) (fun i j => nth i (nth j templates []) 0) l' = Ok f /\ In l' (lag_order (lag_list lags))) as (l' & El & Il).
  { clear - F H. induction F as [|a g ls fs E F I]; [contradiction|]. destruct H as [<-|H]; [exists a; split; trivial; now left|]. destruct (I H) as (l' & A & B'). exists l'. split; trivial. now right. }
  assert (Hl : (Z.abs l' < Z.of_nat (List.length flux))%Z) by (apply Ll; now apply lags_same). destruct (fit_lag_spec inv pinv uw x flux ivar templates l' Hi Hp Lx Li Hl) as (f' & E1 & Lf & _ & _ & _ & Zf). assert (f' = f) as -> by congruence.
  assert (l' = l) as ->. { rewrite <- Lf. apply (Ol k f); trivial. now left. } rewrite Zf. cbv zeta. rewrite (C54_logarithmic x x0 r l Hr Hx Gx Nz) by (rewrite Lx; exact Hl).
  rewrite repeat_length. assert (Nx : existsb (fun z : option R => match z with None => true | Some _ => false end) (repeat (Some (powerRZ r l - 1)) (List.length x)) = false). { generalize (List.length x). intros n. induction n; trivial. } rewrite Nx. f_equal.
  rewrite sum_total. rewrite (tt_ext _ _ (fun _ => powerRZ r l - 1)). 2:{ intros i I. rewrite nth_indep with (d' := Some (powerRZ r l - 1)) by (rewrite repeat_length; lia). now rewrite nth_repeat. }
  rewrite tt_const. field. apply not_0_INR. rewrite Lx. lia.
Qed.

(** ** There are such routines *)
Fixpoint lsq (m p : nat) (A : matrix) {struct p} : (nat -> R) -> nat -> R :=
  match p with
  | O => fun _ _ => 0
  | S q => fun v =>
      let cv := lsq m q A v in let ca := lsq m q A (fun i => A i q) in
      let e := fun i => A i q - total_to q (fun t => A i t * ca t) in
      let r := fun i => v i - total_to q (fun t => A i t * cv t) in
      let ee := total_to m (fun i => e i * e i) in
      let s := if Req_EM_T ee 0 then 0 else total_to m (fun i => e i * r i) / ee in
      fun t => if Nat.eqb t q then s else cv t - s * ca t
  end.
Lemma lsq_normal m p (A : matrix) : forall v u, (u < p)%nat -> total_to m (fun i => A i u * (v i - total_to p (fun t => A i t * lsq m p A v t))) = 0.
Proof.
  induction p as [|q I]; intros v u U; [lia|]. cbn [lsq]. set (cv := lsq m q A v). set (ca := lsq m q A (fun i => A i q)). set (e := fun i => A i q - total_to q (fun t => A i t * ca t)). set (r := fun i => v i - total_to q (fun t => A i t * cv t)).
  set (ee := total_to m (fun i => e i * e i)). set (s := if Req_EM_T ee 0 then 0 else total_to m (fun i => e i * r i) / ee).
  assert (Rs : forall i, v i - total_to (S q) (fun t => A i t * (if Nat.eqb t q then s else cv t - s * ca t)) = r i - s * e i).
  { intros i. cbn [total_to]. rewrite Nat.eqb_refl. rewrite (tt_ext q _ (fun t => A i t * cv t - s * (A i t * ca t))). 2:{ intros t T. destruct (Nat.eqb_spec t q); [lia|ring]. } rewrite tt_minus, tt_lin. unfold r, e. ring. }
  rewrite (tt_ext m _ (fun i => A i u * r i - s * (A i u * e i))) by (intros i _; rewrite Rs; ring). rewrite tt_minus, tt_lin.
  assert (Or : forall w, (w < q)%nat -> total_to m (fun i => A i w * r i) = 0) by (intros w Hw; apply I; exact Hw).
  assert (Oe : forall w, (w < q)%nat -> total_to m (fun i => A i w * e i) = 0) by (intros w Hw; apply (I (fun i => A i q)); exact Hw).
  destruct (Nat.eq_dec u q) as [->|N]; [|rewrite Or, Oe by lia; ring].
  assert (Sp : forall g, (forall w, (w < q)%nat -> total_to m (fun i => A i w * g i) = 0) -> total_to m (fun i => A i q * g i) = total_to m (fun i => e i * g i)).
  { intros g G. rewrite (tt_ext m (fun i => e i * g i) (fun i => A i q * g i - total_to q (fun t => ca t * (A i t * g i)))). 2:{ intros i _. unfold e. rewrite Rmult_minus_distr_r. f_equal. rewrite Rmult_comm, <- tt_lin. apply tt_ext. intros; ring. }
    rewrite tt_minus, tt_swap. rewrite (tt_zero q). { ring. } intros t T. rewrite tt_lin, G by trivial. ring. }
  rewrite (Sp r Or), (Sp e Oe). fold ee. unfold s. destruct (Req_EM_T ee 0) as [Z|Z]; [|field; exact Z].
  rewrite (tt_zero m (fun i => e i * r i)); [ring|]. intros i Hi. assert (e i * e i = 0) as E0. { apply (total_zero m (fun i => e i * e i)); trivial. intros k _. apply Rle_0_sqr. } apply Rsqr_0_uniq in E0. rewrite E0. ring.
Qed.
Theorem lsq_ok : pinv_ok lsq.
Proof.
  intros m p A v c. pose proof (normal_least m p A (fun _ => 1) v (lsq m p A v) c) as H.
  rewrite (tt_ext m _ (fun i => 1 * sq (v i - total_to p (fun t => A i t * lsq m p A v t)))) by (intros; unfold sq; ring). rewrite (tt_ext m (fun i => (v i - total_to p (fun t => A i t * c t)) * _) (fun i => 1 * sq (v i - total_to p (fun t => A i t * c t)))) by (intros; unfold sq; ring).
  apply H; [intros; lra|]. intros u U. rewrite <- (lsq_normal m p A v u U). apply tt_ext. intros; ring.
Qed.
Definition inv1 (p : nat) (M : matrix) : option matrix := if Nat.eqb p 1 then if Req_EM_T (M 0 0)%nat 0 then None else Some (fun _ _ => / M 0 0)%nat else None.
Theorem inv1_ok : inv_ok inv1.
Proof.
  intros p M B. unfold inv1. destruct (Nat.eqb_spec p 1) as [->|]; [|discriminate]. destruct (Req_EM_T (M 0 0)%nat 0); [discriminate|]. intros E j k J K. injection E as <-. replace j with 0%nat by lia. replace k with 0%nat by lia. cbn [total_to]. unfold unit_. cbn [Nat.eqb]. field. trivial.
Qed.
Example redshift_example : exists k fs f, zfind inv1 lsq [1; 2; 4; 8] [5; 1; 3; 2] [1; 1; 1; 1] [[1; 3; 2; 7]] (LagArray [2; -1; 1]%Z) = Ok ([k], fs) /\ nth_error fs k = Some f /\ f_lag f = 1%Z /\ f_z f = Some (powerRZ 2 1 - 1).
Proof.
  apply (redshift_found inv1 lsq [1; 2; 4; 8] [5; 1; 3; 2] [1; 1; 1; 1] [[1; 3; 2; 7]] (LagArray [2; -1; 1]%Z) 1 [1] 1 2); try exact inv1_ok; try exact lsq_ok; try lra; try reflexivity; try lia.
  - repeat split; try discriminate; try (cbn; lia). intros t [<-|[]]. reflexivity.
  - intros u [<-|[<-|[<-|[<-|[]]]]]; lra.
  - repeat constructor; cbn; intuition lia.
  - cbn. tauto.
  - intros j J. cbn in J. destruct J as [<-|[<-|[<-|[]]]]; cbv -[IZR Rplus Rmult Rminus Ropp Rinv Rdiv Rlt Rle]; lra.
  - intros l' c' [<-|[<-|[<-|[]]]] Lc X; trivial; exfalso; destruct c' as [|a [|? ?]]; try discriminate.
    + pose proof (X 2%nat) as X2. pose proof (X 3%nat) as X3. specialize (X2 ltac:(cbn; tauto)). specialize (X3 ltac:(cbn; tauto)). cbv -[IZR Rplus Rmult Rminus Ropp Rinv Rdiv Rlt Rle] in X2, X3. lra.
    + pose proof (X 0%nat) as X2. pose proof (X 1%nat) as X3. specialize (X2 ltac:(cbn; tauto)). specialize (X3 ltac:(cbn; tauto)). cbv -[IZR Rplus Rmult Rminus Ropp Rinv Rdiv Rlt Rle] in X2, X3. lra.
  - intros [|[|[|[|i]]]] Hi; [| | | |cbn in Hi; lia]; cbn [nth Z.of_nat Pos.of_succ_nat Pos.succ powerRZ]; simpl pow; lra.
Qed.
(** ** Findings *)
(** lag 0 has no redshift *)
Theorem zero_lag_refuted inv pinv uw x flux ivar p tm f : (0 < List.length x)%nat -> fit_lag inv pinv uw x flux ivar p tm 0 = Ok f -> f_z f = None.
Proof.
  unfold fit_lag. destruct (Nat.eqb (shared (List.length flux) 0) 0); [discriminate|]. intros L E. injection E as <-. cbn [f_z]. destruct (C54_zero_refuted x) as (-> & _). destruct (List.length x); [lia|]. reflexivity.
Qed.
(** pixels without weight take part in the choice: here the spectrum is the template, except for the last pixel which has ivar 0, but lag -1 is chosen *)
Theorem masked_refuted : exists flux ivar t fs, flux = [1; 2; 100] /\ ivar = [1; 1; 0] /\ t = [1; 2; 3] /\ misfit [t] flux (fun j => nth j ivar 0) 0 [1] = 0 /\
  zfind inv1 lsq [1; 2; 4] flux ivar [t] (LagArray [0; -1]%Z) = Ok ([0%nat], fs) /\ map f_lag fs = [-1; 0]%Z.
Proof.
  exists [1; 2; 100], [1; 1; 0], [1; 2; 3]. eexists. do 3 (split; [reflexivity|]). split. { unfold misfit, seen, total_over, sq, mix, source. cbv -[IZR Rplus Rmult Rminus Ropp Rinv Rdiv Rlt Rle]. ring. }
  unfold zfind. cbn [tmatrix List.length Nat.eqb]. unfold req at 1. replace (existsb _ [1; 1; 0]) with true. 2:{ symmetry. cbn [existsb]. destruct (Req_EM_T (1 - 1) 0); [|lra]. destruct (Req_EM_T (0 - 1) 0); [lra|]. reflexivity. }
  change (lag_order (lag_list (LagArray [0; -1]%Z))) with [-1; 0]%Z. cbn [all_ok]. unfold fit_lag. change (shared (List.length [1; 2; 100]) (-1)) with 2%nat. change (shared (List.length [1; 2; 100]) 0) with 3%nat. cbn [Nat.eqb].
  change (off_t (-1)) with 1%nat. change (off_s (-1)) with 0%nat. change (off_t 0) with 0%nat. change (off_s 0) with 0%nat.
  set (M1 := sum 2 (fun i => nth (1 + i) [1; 2; 3] 0 * nth (0 + i) [1; 1; 0] 0 * nth (1 + i) [1; 2; 3] 0)). set (M0 := sum 3 (fun i => nth (0 + i) [1; 2; 3] 0 * nth (0 + i) [1; 1; 0] 0 * nth (0 + i) [1; 2; 3] 0)).
  assert (E1 : M1 = 13). { unfold M1. rewrite sum_total. cbn. ring. } assert (E0 : M0 = 5). { unfold M0. rewrite sum_total. cbn. ring. }
  unfold inv1. cbn [Nat.eqb]. change (sum 2 (fun i => nth (1 + i) (nth 0 [[1; 2; 3]] []) 0 * nth (0 + i) [1; 1; 0] 0 * nth (1 + i) (nth 0 [[1; 2; 3]] []) 0)) with M1. change (sum 3 (fun i => nth (0 + i) (nth 0 [[1; 2; 3]] []) 0 * nth (0 + i) [1; 1; 0] 0 * nth (0 + i) (nth 0 [[1; 2; 3]] []) 0)) with M0.
  destruct (Req_EM_T M1 0) as [Z|_]; [lra|]. destruct (Req_EM_T M0 0) as [Z|_]; [lra|].
  cbn [map f_rchi2 least fold_left].
  match goal with |- context [Rmin ?a ?b] => set (q1 := a); set (q0 := b) end.
  assert (Us : List.length (filter (fun u => negb (req u 0)) [1; 1; 0]) = 2%nat). { cbn [filter]. unfold req. destruct (Req_EM_T 1 0); [lra|]. destruct (Req_EM_T 0 0); [|lra]. reflexivity. }
  assert (Q1 : q1 = 1 / 13). { unfold q1. rewrite Us. cbn [Z.of_nat Z.sub Z.abs Pos.of_succ_nat Pos.succ Z.add Z.opp Z.pos_sub]. rewrite !sum_total. cbn [total_to]. rewrite !sum_total. cbn [total_to]. rewrite !E1. cbn [nth Nat.add]. cbn. field. }
  assert (Q0 : q0 = 9409 / 2). { unfold q0. rewrite Us. rewrite !sum_total. cbn [total_to]. rewrite !sum_total. cbn [total_to]. rewrite !E0. cbn [nth Nat.add]. cbn. field. }
  split; [|].
  { assert (Em : Rmin q1 q0 = q1). { apply Rmin_left. rewrite Q1, Q0. lra. } rewrite Em. cbn [List.length seq filter nth map f_rchi2]. fold q1 q0. unfold req at 1 2. destruct (Req_EM_T q1 q1); [|lra]. destruct (Req_EM_T q0 q1); [lra|]. reflexivity. }
  reflexivity.
Qed.
(** as many templates as pixels are read as one template per pixel: here the second template is the spectrum, but the fit uses the first pixels of both *)
Theorem square_templates_refuted : exists p tm, tmatrix 2 [[1; 2]; [3; 4]] = Ok (p, tm) /\ (tm 0 1)%nat <> nth 0 (nth 1 [[1; 2]; [3; 4]] []) 0.
Proof. eexists _, _. split; [reflexivity|]. cbn. lra. Qed.
