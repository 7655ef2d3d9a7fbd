(** * PcaUse: projecting on principal components and back (C96) *)
From Coq Require Import List Bool Arith Reals ZArith Lia Lra Permutation Sorted.
From Verif Require Import PyBase AlgModel AlgClip PcaModel PcaProof.
Import ListNotations.
Open Scope R_scope.

(** arrays with the same shape and entries *)
Definition same (a b : arr) : Prop := mr a = mr b /\ mc a = mc b /\ forall i j, (i < mr a)%nat -> (j < mc a)%nat -> me a i j = me b i j.
(** the data as an array of shape points x dimensions *)
Definition data_arr (s : pca) : arr := Arr (List.length (dat s)) (dim s) (entry (dat s)).
Definition transposed (a : arr) : arr := Arr (mc a) (mr a) (fun i j => me a j i).

Lemma dep_some eig inv s a normed W : W = inv (dim s) (tr (snd (system eig s))) -> (mc a <= dim s)%nat ->
  exists r, deproject eig inv s a normed = Ok r /\ same r (Arr (dim s) (mr a) (fun j i => let q := total_to (dim s) (fun c => W j c * (if Nat.ltb c (mc a) then me a i c else 0)) in if normed then q else q * colstd (npts s) (Mmat s) j + colmean (npts s) (Amat s) j)).
Proof.
  intros -> L. unfold deproject. rewrite (proj2 (Nat.ltb_ge (dim s) (mc a))) by exact L. eexists. split; [reflexivity|]. repeat split. intros j i _ _. cbn [me]. destruct normed; cbn zeta; rewrite sum_total; reflexivity.
Qed.
Lemma proj_data eig s q : exists P, project eig s None None q None = Ok P /\ mr P = npts s /\ mc P = match q with Some k => Nat.min k (dim s) | None => dim s end /\ forall i c, me P i c = scores s (snd (system eig s)) i c.
Proof. unfold project. destruct q as [k|]; cbn [given Nat.add Nat.ltb Nat.leb]; (eexists; split; [reflexivity|]; repeat split; intros i c; cbn [me]; apply sum_total). Qed.
Lemma denorm s i j : (0 < npts s)%nat -> varied (dat s) (dim s) -> (j < dim s)%nat -> Nmat s i j * colstd (npts s) (Mmat s) j + colmean (npts s) (Amat s) j = entry (dat s) i j.
Proof. intros L H J. pose proof (std_pos s j L H J). unfold Nmat, Mmat. change (entry (dat s) i j) with (Amat s i j). fold (Mmat s). field. lra. Qed.
Lemma back s V W i j : inverts (dim s) W V -> (j < dim s)%nat -> total_to (dim s) (fun c => W j c * scores s V i c) = Nmat s i j.
Proof.
  intros H J. unfold scores. rewrite (tt_ext _ _ (fun c => total_to (dim s) (fun k => W j c * V k c * Nmat s i k))) by (intros; rewrite <- tt_lin; apply tt_ext; intros; ring). rewrite tt_swap.
  rewrite (tt_ext _ _ (fun k => unit_ j k * Nmat s i k)); [now apply tt_unit'|]. intros k K. rewrite <- (H j k J K). rewrite (tt_ext _ _ (fun c => Nmat s i k * (W j c * V k c))) by (intros; ring). rewrite tt_lin. ring.
Qed.

(** ** C96 *)
(** the data come back from their projections: normalised, or in the units they had *)
Theorem C96_round_trip : forall eig inv s, (2 <= List.length (dat s))%nat -> varied (dat s) (dim s) ->
  (let V := snd (system eig s) in inverts (dim s) (inv (dim s) (tr V)) V) ->
  exists P r r', project eig s None None None None = Ok P /\ mr P = List.length (dat s) /\ mc P = dim s /\
    deproject eig inv s P false = Ok r /\ same r (transposed (data_arr s)) /\
    deproject eig inv s P true = Ok r' /\ same r' (Arr (dim s) (List.length (dat s)) (fun j i => Nmat s i j)).
Proof.
  intros eig inv s L H I'. cbn zeta in I'. fold (npts s) in *. destruct (proj_data eig s None) as (P & EP & R1 & R2 & R3).
  destruct (dep_some eig inv s P false _ eq_refl ltac:(rewrite R2; lia)) as (r & Er & S1 & S2 & S3). destruct (dep_some eig inv s P true _ eq_refl ltac:(rewrite R2; lia)) as (r' & Er' & S1' & S2' & S3').
  exists P, r, r'. split; [exact EP|]. split; [exact R1|]. split; [exact R2|]. cbn [mr mc me] in *.
  assert (Q : forall i j, (j < dim s)%nat -> total_to (dim s) (fun c => inv (dim s) (tr (snd (system eig s))) j c * (if Nat.ltb c (mc P) then me P i c else 0)) = Nmat s i j).
  { intros i j J. rewrite <- (back s (snd (system eig s)) (inv (dim s) (tr (snd (system eig s)))) i j I' J). apply tt_ext. intros c Hc. rewrite R2, (proj2 (Nat.ltb_lt c (dim s)) Hc), R3. reflexivity. }
  split; [exact Er|]. split; [|split; [exact Er'|]].
  - split; [exact S1|]. split; [now rewrite S2|]. intros j i J Hi. rewrite S3 by assumption. cbn zeta. rewrite S1 in J. rewrite Q by exact J. cbn [transposed data_arr me]. apply denorm; auto. lia.
  - split; [exact S1'|]. split; [now rewrite S2'|]. intros j i J Hi. rewrite S3' by assumption. cbn zeta. rewrite S1' in J. now rewrite Q by exact J.
Qed.
(** the projections have mean zero, are uncorrelated, and their variances are the eigenvalues *)
Theorem C96_uncorrelated : forall eig p rows s, history eig p rows s -> eig_ok eig s -> (2 <= List.length (dat s))%nat ->
  exists P, project eig s None None None None = Ok P /\ mr P = List.length (dat s) /\ mc P = p /\
    (forall c, (c < p)%nat -> total_to (mr P) (fun i => me P i c) = 0) /\
    (forall c d, (c < p)%nat -> (d < p)%nat -> c <> d -> total_to (mr P) (fun i => me P i c * me P i d) = 0) /\
    (forall c, (c < p)%nat -> total_to (mr P) (fun i => me P i c * me P i c) / (INR (mr P) - 1) = nth c (fst (system eig s)) 0).
Proof.
  intros eig p rows s H K L. fold (npts s) in *. destruct (history_shape eig p rows s H) as (Dp & _). destruct (system_ok eig p rows s H K) as [ES OR]. destruct (proj_data eig s None) as (P & EP & R1 & R2 & R3). destruct (n1 s L) as [N1 _].
  exists P. rewrite R1, R2, <- Dp. split; [exact EP|]. split; [reflexivity|]. split; [reflexivity|]. split; [|split].
  - intros c Hc. rewrite (tt_ext _ _ (fun i => scores s (snd (system eig s)) i c)) by auto. unfold scores. rewrite tt_swap. apply tt_zero. intros j J. rewrite tt_lin, N_mean by lia. ring.
  - intros c d Hc Hd Ne. rewrite (tt_ext _ _ (fun i => scores s (snd (system eig s)) i c * scores s (snd (system eig s)) i d)) by (intros; now rewrite !R3). rewrite (scores_eigen _ _ (fst (system eig s))) by auto. unfold unit_. rewrite (proj2 (Nat.eqb_neq c d)) by exact Ne. ring.
  - intros c Hc. rewrite (tt_ext _ _ (fun i => scores s (snd (system eig s)) i c * scores s (snd (system eig s)) i c)) by (intros; now rewrite !R3). rewrite (scores_eigen _ _ (fst (system eig s))) by auto. unfold unit_. rewrite Nat.eqb_refl. field. lra.
Qed.
(** keeping k components: what is lost is the variance of the others *)
Lemma tt_split p k f : (k <= p)%nat -> total_to p f = total_to k f + total_to p (fun c => if Nat.ltb c k then 0 else f c).
Proof.
  intros L. rewrite (tt_ext p f (fun c => (if Nat.ltb c k then f c else 0) + (if Nat.ltb c k then 0 else f c))) by (intros c _; destruct (Nat.ltb c k); ring). rewrite tt_plus. f_equal.
  clear - L. induction p as [|p IH]; [now replace k with 0%nat by lia|]. cbn [total_to]. destruct (Nat.eq_dec k (S p)) as [->|Ne].
  - cbn [total_to]. rewrite (proj2 (Nat.ltb_lt p (S p))) by lia. f_equal. apply tt_ext. intros i I'. rewrite (proj2 (Nat.ltb_lt i (S p))) by lia. reflexivity.
  - rewrite IH by lia. rewrite (proj2 (Nat.ltb_ge p k)) by lia. ring.
Qed.
Theorem C96_residual : forall eig inv p rows s k, history eig p rows s -> eig_ok eig s -> (2 <= List.length (dat s))%nat -> (k <= p)%nat ->
  (let V := snd (system eig s) in forall j c, (j < p)%nat -> (c < p)%nat -> inv p (tr V) j c = V j c) ->
  exists P r, project eig s None None (Some k) None = Ok P /\ mr P = List.length (dat s) /\ mc P = k /\ deproject eig inv s P true = Ok r /\ mr r = p /\ mc r = List.length (dat s) /\
    total_to (List.length (dat s)) (fun i => total_to p (fun j => (Nmat s i j - me r j i) * (Nmat s i j - me r j i))) =
    (INR (List.length (dat s)) - 1) * total_to p (fun c => if Nat.ltb c k then 0 else nth c (fst (system eig s)) 0).
Proof.
  intros eig inv p rows s k H K L Hk I'. cbn zeta in I'. fold (npts s) in *. destruct (history_shape eig p rows s H) as (Dp & _). destruct (system_ok eig p rows s H K) as [ES OR]. rewrite <- Dp in *. set (V := snd (system eig s)) in *.
  destruct (proj_data eig s (Some k)) as (P & EP & R1 & R2 & R3). fold V in R3. rewrite Nat.min_l in R2 by exact Hk.
  destruct (dep_some eig inv s P true _ eq_refl ltac:(rewrite R2; lia)) as (r & Er & S1 & S2 & S3). fold V in S3. cbn [mr mc me] in *. exists P, r. repeat (split; [first [assumption|congruence]|]).
  assert (RS : forall i j, (i < npts s)%nat -> (j < dim s)%nat -> Nmat s i j - me r j i = total_to (dim s) (fun c => if Nat.ltb c k then 0 else V j c * scores s V i c)).
  { intros i j Hi J. rewrite S3 by (rewrite ?S1, ?S2, ?R1; assumption). cbn zeta. assert (IV : inverts (dim s) V V) by (intros a b A B; now apply OR). rewrite <- (back s V V i j IV J).
    rewrite <- tt_minus. apply tt_ext. intros c Hc. rewrite I' by auto. rewrite R2, R3. destruct (Nat.ltb c k); ring. }
  assert (SQ : forall i, (i < npts s)%nat -> total_to (dim s) (fun j => (Nmat s i j - me r j i) * (Nmat s i j - me r j i)) = total_to (dim s) (fun c => if Nat.ltb c k then 0 else scores s V i c * scores s V i c)).
  { intros i Hi. set (g := fun c => if Nat.ltb c k then 0 else scores s V i c).
    assert (RG : forall j, (j < dim s)%nat -> Nmat s i j - me r j i = total_to (dim s) (fun c => V j c * g c)). { intros j J. rewrite RS by auto. apply tt_ext. intros c _. unfold g. destruct (Nat.ltb c k); ring. }
    rewrite (tt_ext _ _ (fun j => total_to (dim s) (fun c => g c * (V j c * total_to (dim s) (fun d => V j d * g d))))).
    2: { intros j J. rewrite RG by exact J. rewrite (tt_ext _ (fun c => g c * (V j c * total_to (dim s) (fun d => V j d * g d))) (fun c => total_to (dim s) (fun d => V j d * g d) * (V j c * g c))) by (intros; ring). rewrite tt_lin. reflexivity. }
    rewrite tt_swap. apply tt_ext. intros c Hc. rewrite tt_lin. 
    assert (Q : total_to (dim s) (fun j => V j c * total_to (dim s) (fun d => V j d * g d)) = g c).
    { rewrite (tt_ext _ _ (fun j => total_to (dim s) (fun d => V j c * V j d * g d))) by (intros; rewrite <- tt_lin; apply tt_ext; intros; ring). rewrite tt_swap.
      rewrite (tt_ext _ _ (fun d => unit_ c d * g d)); [now apply tt_unit'|]. intros d Hd. rewrite <- (proj1 OR c d Hc Hd). rewrite (tt_ext _ _ (fun j => g d * (V j c * V j d))) by (intros; ring). rewrite tt_lin. ring. }
    rewrite Q. unfold g. destruct (Nat.ltb c k); ring. }
  rewrite (tt_ext (npts s) _ _ SQ). rewrite tt_swap. rewrite <- tt_lin. apply tt_ext. intros c Hc. destruct (Nat.ltb c k); [rewrite tt_const; ring|]. rewrite (scores_eigen s V (fst (system eig s))) by auto. unfold unit_. rewrite Nat.eqb_refl. ring.
Qed.
(** refusals *)
Theorem C96_refused :
  (forall p rows k, k <> p -> pca_init p rows (Some k) = Raise ValueError) /\
  (forall eig s v e q c, (2 <= given e + given q + given c)%nat -> project eig s v e q c = Raise ValueError) /\
  (forall eig s v q, mr v <> dim s -> project eig s (Some v) None q None = Raise ValueError) /\
  (forall eig inv s a normed, (dim s < mc a)%nat -> deproject eig inv s a normed = Raise ValueError) /\
  (forall eig inv s pc v, mr v <> dim s -> subtractPC eig inv s pc (Some v) = Raise ValueError).
Proof.
  split; [|split; [|split; [|split]]].
  - intros p rows k H. unfold pca_init. apply Nat.eqb_neq in H. now rewrite H.
  - intros eig s v e q c H. unfold project. rewrite (proj2 (Nat.ltb_lt 1 _)) by lia. reflexivity.
  - intros eig s v q H. unfold project. apply not_eq_sym, Nat.eqb_neq in H. destruct q; cbn [given Nat.add Nat.ltb Nat.leb]; now rewrite H.
  - intros eig inv s a normed H. unfold deproject. rewrite (proj2 (Nat.ltb_lt _ _)) by lia. reflexivity.
  - intros eig inv s pc v H. unfold subtractPC. cbn [mc]. apply Nat.eqb_neq in H. now rewrite H.
Qed.
(** an energy threshold cannot be used at all *)
Theorem C96_threshold_refuted : forall eig s v x, project eig s v (Some x) None None = Raise AttributeError /\ project eig s v None None (Some x) = Raise AttributeError.
Proof. intros. split; reflexivity. Qed.
(** clipping fails unless there are as many points as dimensions (or only one) *)
Theorem C96_sigclip_refuted : forall s sigs, List.length (dat s) <> 1%nat -> List.length (dat s) <> dim s -> sigclip s sigs = Raise ValueError.
Proof. intros s sigs A B. unfold sigclip, npts. apply Nat.eqb_neq in A, B. now rewrite A, B. Qed.
(** removing components also multiplies the distances from the mean with the deviation: [right] is what remains of the data without them *)
Theorem C96_subtract_refuted : forall eig inv s pc, (2 <= List.length (dat s))%nat -> varied (dat s) (dim s) -> (forall c, In c pc -> (c < dim s)%nat) ->
  exists r upc, subtractPC eig inv s pc None = Ok r /\ mr r = List.length (dat s) /\ mc r = dim s /\
    deproject eig inv s (Arr (List.length (dat s)) (dim s) (fun i c => if existsb (Nat.eqb c) pc then scores s (snd (system eig s)) i c else 0)) false = Ok upc /\
    forall i j mu v, (i < List.length (dat s))%nat -> (j < dim s)%nat -> mean_of (List.length (dat s)) (fun i => entry (dat s) i j) mu -> var_of (List.length (dat s)) (fun i => entry (dat s) i j) v ->
      let right := entry (dat s) i j - (me upc j i - mu) in me r i j - mu = sqrt v * (right - mu).
Proof.
  intros eig inv s pc L H C. fold (npts s) in *. destruct (proj_data eig s None) as (P & EP & R1 & R2 & R3). unfold subtractPC. cbn [mc mr me]. rewrite !Nat.eqb_refl, EP.
  assert (F : forallb (fun c => Nat.ltb c (dim s)) pc = true) by (apply forallb_forall; intros c Hc; apply Nat.ltb_lt; auto). rewrite F.
  set (a := Arr (npts s) (dim s) (fun i c => if existsb (Nat.eqb c) pc then me P i c else 0)). set (b := Arr (npts s) (dim s) (fun i c => if existsb (Nat.eqb c) pc then scores s (snd (system eig s)) i c else 0)).
  destruct (dep_some eig inv s a false _ eq_refl (le_n _)) as (u & Eu & U1 & U2 & U3). destruct (dep_some eig inv s b false _ eq_refl (le_n _)) as (w & Ew & W1 & W2 & W3).
  rewrite Eu. eexists _, w. split; [reflexivity|]. split; [reflexivity|]. split; [reflexivity|]. split; [exact Ew|]. intros i j mu v Hi Hj M V. cbn [me mr mc] in *.
  assert (E : me u j i = me w j i). { rewrite U3 by (rewrite ?U1, ?U2; assumption). rewrite W3 by (rewrite ?W1, ?W2; assumption). cbn zeta. do 2 f_equal. apply tt_ext. intros c _. unfold a, b. cbn [me mc]. destruct (Nat.ltb c (dim s)); [|reflexivity]. destruct (existsb (Nat.eqb c) pc); [|reflexivity]. now rewrite R3. }
  rewrite E. assert (N0 : INR (npts s) <> 0) by (apply not_0_INR; lia).
  assert (Mu : colmean (npts s) (Amat s) j = mu). { apply Rmult_eq_reg_r with (INR (npts s)); [|exact N0]. rewrite (colmean_spec (npts s) (Amat s) j) by lia. symmetry. exact M. }
  assert (Sd : colstd (npts s) (Mmat s) j = sqrt v). { rewrite M_std by lia. f_equal. destruct V as (mu' & M' & V). assert (mu' = mu) by (apply Rmult_eq_reg_r with (INR (npts s)); [unfold mean_of in *; congruence|exact N0]). subst mu'. apply Rmult_eq_reg_r with (INR (npts s)); [|exact N0]. rewrite V. unfold V2. unfold Rdiv. rewrite Rmult_assoc, Rinv_l, Rmult_1_r by exact N0. apply tt_ext. intros k _. unfold Mmat. rewrite Mu. reflexivity. }
  rewrite Mu, Sd. change (Amat s i j) with (entry (dat s) i j). ring.
Qed.
(** when all components are removed only the mean is left *)
Theorem C96_subtract_all : forall eig inv s, (2 <= List.length (dat s))%nat -> varied (dat s) (dim s) -> (let V := snd (system eig s) in inverts (dim s) (inv (dim s) (tr V)) V) ->
  exists r, subtractPC eig inv s (seq 0 (dim s)) None = Ok r /\ forall i j mu, (i < List.length (dat s))%nat -> (j < dim s)%nat -> mean_of (List.length (dat s)) (fun i => entry (dat s) i j) mu -> me r i j = mu.
Proof.
  intros eig inv s L H I'. cbn zeta in I'. destruct (C96_subtract_refuted eig inv s (seq 0 (dim s)) L H) as (r & u & Er & _ & _ & Eu & Hr); [intros c Hc; apply in_seq in Hc; lia|]. exists r. split; [exact Er|]. intros i j mu Hi Hj M. fold (npts s) in *.
  assert (N0 : INR (npts s) <> 0) by (apply not_0_INR; lia).
  assert (Mu : colmean (npts s) (Amat s) j = mu). { apply Rmult_eq_reg_r with (INR (npts s)); [|exact N0]. rewrite (colmean_spec (npts s) (Amat s) j) by lia. symmetry. exact M. }
  specialize (Hr i j mu (V2 s j) Hi Hj M). assert (VV : var_of (npts s) (fun i => entry (dat s) i j) (V2 s j)). { exists mu. split; [exact M|]. unfold V2. unfold Rdiv. rewrite Rmult_assoc, Rinv_l, Rmult_1_r by exact N0. apply tt_ext. intros k _. unfold Mmat. rewrite Mu. reflexivity. }
  specialize (Hr VV). cbn zeta in Hr.
  match type of Eu with deproject _ _ _ ?b _ = _ => destruct (dep_some eig inv s b false _ eq_refl (le_n _)) as (w & Ew & W1 & W2 & W3) end. rewrite Eu in Ew. injection Ew as <-. cbn [mr mc me] in *.
  assert (Eij : me u j i = entry (dat s) i j). { rewrite W3 by (rewrite ?W1, ?W2; assumption). cbn zeta. rewrite <- (denorm s i j) by (auto; lia). do 2 f_equal. rewrite <- (back s (snd (system eig s)) _ i j I' Hj). apply tt_ext. intros c Hc. rewrite (proj2 (Nat.ltb_lt c (dim s)) Hc). replace (existsb (Nat.eqb c) (seq 0 (dim s))) with true; [reflexivity|]. symmetry. apply existsb_exists. exists c. split; [apply in_seq; lia|apply Nat.eqb_refl]. }
  rewrite Eij in Hr. replace (entry (dat s) i j - (entry (dat s) i j - mu) - mu) with 0 in Hr by ring. rewrite Rmult_0_r in Hr. lra.
Qed.

(** four points of two uncorrelated dimensions, for which the components are the axes: the assumptions hold *)
Definition four : list (list R) := [[2; 2]; [2; - (2)]; [- (2); 2]; [- (2); - (2)]].
Definition eig4 : eigfun := fun _ _ => ([4 / 3; 4 / 3], unit_).
Definition inv4 : invfun := fun _ => tr.
Example C96_ex : let s := Pca four four 2 None in
  history eig4 2 four s /\ table four 2 /\ varied (dat s) (dim s) /\ eig_ok eig4 s /\ inverts 2 (inv4 2%nat (tr (snd (system eig4 s)))) (snd (system eig4 s)) /\ getCovarianceMatrix s 0%nat 0%nat = 4 / 3 /\
  exists r, subtractPC eig4 inv4 s [0%nat] None = Ok r /\ me r 0%nat 0%nat = 0 /\ me r 0%nat 1%nat = 4.
Proof.
  intros s. assert (Hh : history eig4 2 four s) by (apply h_init with None; reflexivity). assert (T : table four 2) by (intros r Hr; cbn in Hr; intuition (subst; reflexivity)).
  assert (Vr : varied (dat s) (dim s)). { intros [|[|j]] J; cbn in J; [exists 0%nat, 2%nat|exists 0%nat, 1%nat|lia]; cbn; repeat split; try lia; lra. }
  assert (N4 : (2 <= npts s)%nat) by (cbn; lia).
  assert (Me : forall j, (j < 2)%nat -> colmean (npts s) (Amat s) j = 0). { intros [|[|j]] J; [| |lia]; unfold colmean; rewrite sum_total; unfold s, npts, Amat; cbn [dat four List.length total_to nth]; rewrite (INR_IZR_INZ 4); change (IZR (Z.of_nat 4)) with 4; field. }
  assert (V4 : forall j, (j < 2)%nat -> V2 s j = 4). { intros j J. unfold V2, Mmat. rewrite Me by exact J. destruct j as [|[|j]]; [| |lia]; unfold s, npts, Amat; cbn [dat four List.length total_to nth]; rewrite (INR_IZR_INZ 4); change (IZR (Z.of_nat 4)) with 4; field. }
  assert (St : forall j, (j < 2)%nat -> colstd (npts s) (Mmat s) j = 2). { intros j J. rewrite M_std by lia. rewrite V4 by exact J. replace 4 with (2 * 2) by ring. apply sqrt_square. lra. }
  assert (Nm : forall i j, (j < 2)%nat -> Nmat s i j = Amat s i j / 2). { intros i j J. unfold Nmat. rewrite St by exact J. unfold Mmat. rewrite Me by exact J. unfold Rdiv. ring. }
  assert (Cv : forall j k, (j < 2)%nat -> (k < 2)%nat -> getCovarianceMatrix s j k = 4 / 3 * unit_ j k).
  { intros j k J K. rewrite cov_eq by lia. rewrite (tt_ext _ _ (fun i => Amat s i j / 2 * (Amat s i k / 2))) by (intros; rewrite !Nm by auto; reflexivity). 
    destruct j as [|[|j]]; [| |lia]; (destruct k as [|[|k]]; [| |lia]); unfold s, npts, Amat, unit_; cbn [dat four List.length total_to nth Nat.eqb]; rewrite (INR_IZR_INZ 4); change (IZR (Z.of_nat 4)) with 4; field. }
  assert (Or : orthogonal 2 unit_). { split; intros [|[|c]] [|[|d]] A B; try lia; unfold unit_; cbn [total_to Nat.eqb]; ring. }
  assert (Ek : eig_ok eig4 s). { split; [|exact Or]. split; [reflexivity|]. intros j c J Hc. change (dim s) with 2%nat in *. rewrite (tt_ext _ _ (fun k => unit_ j k * (4 / 3 * unit_ k c))) by (intros k K; rewrite Cv by auto; unfold eig4; cbn [snd]; ring). rewrite (tt_unit' 2 (fun k => 4 / 3 * unit_ k c)) by exact J. unfold eig4. cbn [fst snd]. destruct c as [|[|c]]; [| |lia]; reflexivity. }
  assert (Iv : inverts 2 (inv4 2%nat (tr (snd (system eig4 s)))) (snd (system eig4 s))). { destruct (system_ok eig4 2 four s Hh Ek) as [_ O]. intros j k J K. apply O; assumption. }
  split; [exact Hh|]. split; [exact T|]. split; [exact Vr|]. split; [exact Ek|]. split; [exact Iv|]. split; [rewrite Cv by lia; unfold unit_; cbn [Nat.eqb]; ring|].
  destruct (C96_subtract_refuted eig4 inv4 s [0%nat] N4 Vr) as (r & u & Er & _ & _ & Eu & Hr); [intros c [<-|[]]; cbn; lia|]. exists r. split; [exact Er|].
  assert (Sy : forall j c, (c < 2)%nat -> snd (system eig4 s) j c = unit_ j c). { intros j c Hc. unfold system. cbn [cache s]. unfold ordered, eig4. cbn [fst snd]. unfold argsort_rev. cbn [List.length seq fold_right ins nth]. destruct (Rle_dec (4 / 3) (4 / 3)) as [_|Q]; [|lra]. destruct c as [|[|c]]; [| |lia]; reflexivity. }
  match type of Eu with deproject _ _ _ ?b _ = _ => destruct (dep_some eig4 inv4 s b false _ eq_refl (le_n _)) as (w & Ew & W1 & W2 & W3) end. rewrite Eu in Ew. injection Ew as <-. cbn [mr mc me] in *.
  assert (Me' : forall j, (j < 2)%nat -> mean_of (List.length (dat s)) (fun i => entry (dat s) i j) 0). { intros j J. pose proof (colmean_spec (npts s) (Amat s) j ltac:(lia)) as Q. rewrite Me in Q by exact J. exact Q. }
  assert (Va : forall j, (j < 2)%nat -> var_of (List.length (dat s)) (fun i => entry (dat s) i j) 4). { intros j J. exists 0. split; [now apply Me'|]. rewrite <- (V4 j J). unfold V2. unfold Rdiv. change (List.length (dat s)) with (npts s). rewrite Rmult_assoc, Rinv_l, Rmult_1_r by (apply not_0_INR; lia). apply tt_ext. intros i _. unfold Mmat. rewrite Me by exact J. reflexivity. }
  assert (U : forall j, (j < 2)%nat -> me u j 0%nat = unit_ j 0 * 2).
  { intros j J. rewrite W3 by (rewrite ?W1, ?W2; cbn; lia). cbn zeta. rewrite St, Me by exact J. change (dim s) with 2%nat. rewrite (tt_ext _ _ (fun c => unit_ c 0 * (unit_ j c * scores s unit_ 0 c))).
    2: { intros c Hc. unfold inv4, tr. rewrite Sy by exact Hc. rewrite (proj2 (Nat.ltb_lt c 2) Hc). cbn [existsb]. replace (unit_ c 0) with (if Nat.eqb c 0 then 1 else 0) by reflexivity. destruct (Nat.eqb c 0); cbn [orb]; [|ring].
      rewrite Rmult_1_l. f_equal. unfold scores. apply tt_ext. intros k _. rewrite Sy by exact Hc. reflexivity. }
    rewrite tt_unit by lia. unfold scores. change (dim s) with 2%nat. rewrite (tt_ext _ _ (fun j => unit_ j 0 * (Amat s 0%nat j / 2))) by (intros k K; rewrite Nm by exact K; reflexivity). rewrite tt_unit by lia. unfold Amat, s. cbn [dat four nth]. field. }
  assert (L0 : (0 < List.length (dat s))%nat) by (cbn; lia). assert (J0 : (0 < 2)%nat) by lia. assert (J1 : (1 < 2)%nat) by lia.
  pose proof (Hr 0%nat 0%nat 0 4 L0 J0 (Me' 0%nat J0) (Va 0%nat J0)) as H0. pose proof (Hr 0%nat 1%nat 0 4 L0 J1 (Me' 1%nat J1) (Va 1%nat J1)) as H1. cbn zeta in H0, H1.
  replace (sqrt 4) with 2 in H0, H1 by (replace 4 with (2 * 2) by ring; rewrite sqrt_square; lra).
  rewrite U in H0, H1 by lia. unfold unit_, entry, s in H0, H1. cbn [dat four nth Nat.eqb] in H0, H1. split; lra.
Qed.
