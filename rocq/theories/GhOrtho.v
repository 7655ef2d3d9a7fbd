(** * GhOrtho: the integrals of products of Hermite polynomials with the Gaussian weight *)
From Coq Require Import List Bool Reals Lra Lia Psatz.
From Coquelicot Require Import Coquelicot.
From Verif Require Import PyBase GhModel.
Import ListNotations.
Open Scope R_scope.

(** ** the polynomials *)
Lemma herm_rec n x : herm (S (S n)) x = 2 * x * herm (S n) x - 2 * INR (S n) * herm n x.
Proof. reflexivity. Qed.
Lemma herm_SS_ind (P : nat -> Prop) : P 0%nat -> P 1%nat -> (forall n, P n -> P (S n) -> P (S (S n))) -> forall n, P n.
Proof. intros A B C n. cut (P n /\ P (S n)); [tauto|]. induction n as [|n [I J]]; split; auto. Qed.
(** the derivative: 2n H_(n-1) *)
Definition herm_prev (n : nat) (x : R) : R := match n with O => 0 | S k => herm k x end.
Lemma herm_down n x : herm (S n) x = 2 * x * herm n x - 2 * INR n * herm_prev n x.
Proof. destruct n; [simpl; ring|]. apply herm_rec. Qed.
Lemma herm_derive n x : is_derive (herm n) x (2 * INR n * herm_prev n x).
Proof.
  revert x. apply (herm_SS_ind (fun n => forall x, is_derive (herm n) x (2 * INR n * herm_prev n x))); clear n.
  - intros x. simpl. replace (2 * 0 * 0) with 0 by ring. apply @is_derive_const.
  - intros x. simpl. auto_derive; trivial. ring.
  - intros n I J x. apply (is_derive_ext (fun t => 2 * t * herm (S n) t - 2 * INR (S n) * herm n t)); [reflexivity|].
    evar_last. { apply @is_derive_minus. { apply (is_derive_mult (fun t => 2 * t) (herm (S n))). { apply is_derive_scal. apply @is_derive_id. } { apply J. } { intros; apply Rmult_comm. } } { apply is_derive_scal. apply I. } }
    cbv [plus mult one minus opp plus]. cbn [herm_prev]. change (@one R_Ring) with 1. unfold minus, opp, plus, mult; cbn -[herm INR].
    rewrite (S_INR (S n)). rewrite (herm_down n x). rewrite S_INR. ring.
Qed.
Lemma herm_cont n x : continuous (herm n) x.
Proof. apply @ex_derive_continuous. eexists. apply herm_derive. Qed.
(** even and odd *)
Lemma herm_opp n x : herm n (- x) = (-1) ^ n * herm n x.
Proof.
  revert x. apply (herm_SS_ind (fun n => forall x, herm n (- x) = (-1) ^ n * herm n x)); clear n.
  - intros; simpl; ring.
  - intros; simpl; ring.
  - intros n I J x. rewrite !herm_rec, I, J. rewrite <- !tech_pow_Rmult. ring.
Qed.
(** growth *)
Lemma herm_bound n : exists C, 0 <= C /\ forall x, Rabs (herm n x) <= C * (1 + x ^ 2) ^ n.
Proof.
  apply (herm_SS_ind (fun n => exists C, 0 <= C /\ forall x, Rabs (herm n x) <= C * (1 + x ^ 2) ^ n)); clear n.
  - exists 1. split; [lra|]. intros x. simpl. rewrite Rabs_R1. lra.
  - exists 2. split; [lra|]. intros x. simpl. rewrite Rabs_mult, (Rabs_pos_eq 2) by lra. assert (Rabs x <= 1 + x * (x * 1)); [|lra]. apply Rabs_le. nra.
  - intros n (C & C0 & I) (D & D0 & J). exists (2 * D + 2 * INR (S n) * C). pose proof (pos_INR (S n)) as NN. split; [nra|]. intros x. rewrite herm_rec.
    set (t := 1 + x ^ 2) in *. assert (T : 1 <= t). { unfold t. pose proof (pow2_ge_0 x). lra. }
    assert (X : Rabs x <= t). { unfold t. apply Rabs_le. pose proof (pow2_ge_0 (x - 1)). pose proof (pow2_ge_0 (x + 1)). simpl in *. nra. }
    specialize (I x). specialize (J x). fold t in I, J. assert (T' : 1 <= t ^ n) by now apply pow_R1_Rle.
    replace (2 * x * herm (S n) x - 2 * INR (S n) * herm n x) with (2 * (x * herm (S n) x) + - (2 * INR (S n) * herm n x)) by ring.
    apply Rle_trans with (1 := Rabs_triang _ _). rewrite Rabs_Ropp, !Rabs_mult, (Rabs_pos_eq 2), (Rabs_pos_eq (INR (S n))) by lra.
    assert (A1 : Rabs x * Rabs (herm (S n) x) <= t * (D * t ^ S n)). { apply Rmult_le_compat; trivial using Rabs_pos. }
    assert (A2 : INR (S n) * Rabs (herm n x) <= INR (S n) * (C * t ^ n)). { apply Rmult_le_compat_l; trivial. }
    assert (A3 : t ^ n <= t ^ S (S n)). { apply Rle_pow; trivial. lia. }
    assert (A4 : INR (S n) * (C * t ^ n) <= INR (S n) * (C * t ^ S (S n))). { apply Rmult_le_compat_l; trivial. apply Rmult_le_compat_l; trivial. }
    replace (t * (D * t ^ S n)) with (D * t ^ S (S n)) in A1 by (simpl; ring). nra.
Qed.

(** ** the weight *)
Definition wgt (x : R) : R := exp (- (x * x)).
Lemma wgt_pos x : 0 < wgt x.
Proof. apply exp_pos. Qed.
Lemma wgt_derive x : is_derive wgt x (- (2 * x) * wgt x).
Proof. unfold wgt. auto_derive; trivial. ring. Qed.
Lemma wgt_cont x : continuous wgt x.
Proof. apply @ex_derive_continuous. eexists. apply wgt_derive. Qed.
Lemma exp_pow t n : exp (INR n * t) = exp t ^ n.
Proof. induction n as [|n I]; [simpl; rewrite Rmult_0_l; apply exp_0|]. rewrite S_INR, Rmult_plus_distr_r, Rmult_1_l, exp_plus, I. simpl. ring. Qed.
Lemma exp_ge_power t n : 0 <= t -> ((1 + t) / INR (S n)) ^ S n <= exp t.
Proof.
  intros T. assert (N : 1 <= INR (S n)). { rewrite S_INR. pose proof (pos_INR n). lra. }
  replace t with (INR (S n) * (t / INR (S n))) at 2 by (field; lra). rewrite exp_pow. apply pow_incr. split.
  - apply Rdiv_le_0_compat; lra.
  - apply Rle_trans with (1 + t / INR (S n)); [|apply exp_ineq1_le]. replace ((1 + t) / INR (S n)) with (/ INR (S n) + t / INR (S n)) by (field; lra).
    assert (/ INR (S n) <= 1); [|lra]. rewrite <- Rinv_1. apply Rinv_le_contravar; lra.
Qed.
Lemma poly_wgt n x : (1 + x ^ 2) ^ n * wgt x <= INR (S n) ^ S n / (1 + x ^ 2).
Proof.
  assert (T : 0 <= x ^ 2) by apply pow2_ge_0. pose proof (exp_ge_power (x ^ 2) n T) as E. unfold wgt. rewrite exp_Ropp. replace (x * x) with (x ^ 2) by ring.
  set (t := x ^ 2) in *. assert (N : 1 <= INR (S n)). { rewrite S_INR. pose proof (pos_INR n). lra. } assert (P : 0 < INR (S n) ^ S n) by (apply pow_lt; lra).
  assert (Q : 0 < (1 + t) ^ n) by (apply pow_lt; lra). unfold Rdiv in E. rewrite Rpow_mult_distr in E. rewrite pow_inv in E.
  pose proof (exp_pos t) as X. apply Rmult_le_reg_r with (exp t * (1 + t)); [apply Rmult_lt_0_compat; lra|].
  replace ((1 + t) ^ n * / exp t * (exp t * (1 + t))) with ((1 + t) ^ S n) by (simpl; field; lra).
  replace (INR (S n) ^ S n / (1 + t) * (exp t * (1 + t))) with (INR (S n) ^ S n * exp t) by (field; lra).
  apply Rmult_le_compat_l with (r := INR (S n) ^ S n) in E; [|lra]. replace (INR (S n) ^ S n * ((1 + t) ^ S n * / INR (S n) ^ S n)) with ((1 + t) ^ S n) in E by (field; lra). exact E.
Qed.
Lemma product_bound m n : exists K, 0 <= K /\ forall x, Rabs (herm m x * herm n x * wgt x) <= K / (1 + x ^ 2).
Proof.
  destruct (herm_bound m) as (C & C0 & B). destruct (herm_bound n) as (D & D0 & E). exists (C * D * INR (S (m + n)) ^ S (m + n)). split.
  { apply Rmult_le_pos; [nra|]. apply pow_le, pos_INR. }
  intros x. rewrite !Rabs_mult, (Rabs_pos_eq (wgt x)) by apply Rlt_le, wgt_pos. specialize (B x). specialize (E x). pose proof (poly_wgt (m + n) x) as P.
  assert (Q : Rabs (herm m x) * Rabs (herm n x) <= C * D * (1 + x ^ 2) ^ (m + n)).
  { rewrite pow_add. replace (C * D * ((1 + x ^ 2) ^ m * (1 + x ^ 2) ^ n)) with ((C * (1 + x ^ 2) ^ m) * (D * (1 + x ^ 2) ^ n)) by ring. apply Rmult_le_compat; trivial using Rabs_pos. }
  apply Rle_trans with (C * D * (1 + x ^ 2) ^ (m + n) * wgt x). { apply Rmult_le_compat_r; trivial. apply Rlt_le, wgt_pos. }
  apply Rmult_le_compat_l with (r := C * D) in P; [|nra]. unfold Rdiv in *. lra.
Qed.

(** ** limits at the two ends *)
Lemma lim_plus (M : R -> R) l K : (forall r, 0 < r -> Rabs (M r - l) <= K / r) -> filterlim M (Rbar_locally p_infty) (locally l).
Proof.
  intros B. intros P [e Q]. exists (Rmax 0 (K / e)). intros y Y. assert (0 < y) by (pose proof (Rmax_l 0 (K / e)); lra). assert (K / e < y) by (pose proof (Rmax_r 0 (K / e)); lra). apply Q.
  unfold ball; simpl; unfold AbsRing_ball, abs, minus, plus, opp; simpl. apply Rle_lt_trans with (1 := B y H). pose proof (cond_pos e).
  apply Rmult_lt_reg_r with y; trivial. replace (K / y * y) with K by (field; lra). replace K with (K / e * e) by (field; lra). nra.
Qed.
Lemma lim_minus (M : R -> R) l : filterlim (fun x => M (- x)) (Rbar_locally p_infty) (locally l) -> filterlim M (Rbar_locally m_infty) (locally l).
Proof. intros F P Q. destruct (F P Q) as (B & G). exists (- B). intros y Y. rewrite <- (Ropp_involutive y). apply G. lra. Qed.
Lemma to_zero (M : R -> R) K : 0 <= K -> (forall x, Rabs (M x) <= K / (1 + x ^ 2)) -> filterlim M (Rbar_locally p_infty) (locally 0) /\ filterlim M (Rbar_locally m_infty) (locally 0).
Proof.
  intros K0 B. assert (S : forall r, 0 < r -> K / (1 + r ^ 2) <= K / r).
  { intros r R. unfold Rdiv. apply Rmult_le_compat_l; trivial. apply Rinv_le_contravar; trivial. pose proof (pow2_ge_0 (r - 1)). simpl in *. nra. }
  split; [|apply lim_minus]; apply lim_plus with K; intros r R; rewrite Rminus_0_r.
  - apply Rle_trans with (1 := B r), S, R.
  - apply Rle_trans with (1 := B (- r)). replace ((- r) ^ 2) with (r ^ 2) by ring. apply S, R.
Qed.
Notation all_R f := (is_RInt_gen f (Rbar_locally m_infty) (Rbar_locally p_infty)).
Lemma gen_derive (M w : R -> R) la lb : (forall x, is_derive M x (w x)) -> (forall x, continuous w x) -> filterlim M (Rbar_locally m_infty) (locally la) -> filterlim M (Rbar_locally p_infty) (locally lb) -> all_R w (lb - la).
Proof.
  intros D C A B. assert (E : forall r, Derive M r = w r) by (intros; now apply is_derive_unique, D).
  apply (is_RInt_gen_ext (Derive M)). { apply filter_forall. intros ab x _. apply E. }
  apply is_RInt_gen_Derive; trivial; apply filter_forall; intros ab x _.
  - eexists. apply D.
  - apply (continuous_ext (T:=R_UniformSpace) (U:=R_UniformSpace) w); trivial. intros. symmetry. apply E.
Qed.

(** ** the integral of the weight exists and is positive *)
Definition area (x : R) : R := RInt wgt 0 x.
Lemma area_derive x : is_derive area x (wgt x).
Proof. apply (is_derive_RInt wgt area 0). { apply filter_forall. intros y. apply (@RInt_correct R_CompleteNormedModule). apply @ex_RInt_continuous. intros; apply wgt_cont. } apply wgt_cont. Qed.
Lemma wgt_ex a b : ex_RInt wgt a b.
Proof. apply @ex_RInt_continuous. intros; apply wgt_cont. Qed.
Lemma dcont (f : R -> R) x l : is_derive f x l -> continuity_pt f x.
Proof. intros D. apply continuity_pt_filterlim. apply (@ex_derive_continuous R_AbsRing R_NormedModule). now exists l. Qed.
Lemma area_mono x y : x < y -> area x < area y.
Proof.
  intros L. destruct (MVT_gen area x y wgt) as (c & _ & E). { intros; apply area_derive. } { intros z _. exact (dcont _ _ _ (area_derive z)). }
  pose proof (wgt_pos c). nra.
Qed.
Lemma area_0 : area 0 = 0.
Proof. unfold area. apply (@RInt_point R_CompleteNormedModule). Qed.
Lemma area_opp x : area (- x) = - area x.
Proof.
  assert (D : forall t, is_derive (fun x => area (- x) + area x) t 0).
  { intros t. evar_last. { apply @is_derive_plus; [|apply area_derive]. apply (is_derive_comp area (fun x => - x)); [apply area_derive|]. apply @is_derive_opp, @is_derive_id. }
    unfold plus, opp, scal, one, mult; simpl. unfold mult, wgt; simpl. replace (- t * - t) with (t * t) by ring. ring. }
  destruct (MVT_gen (fun x => area (- x) + area x) 0 x (fun _ => 0)) as (c & _ & E). { intros; apply D. } { intros z _. exact (dcont _ _ _ (D z)). }
  cbv beta in E. rewrite Ropp_0, area_0 in E. lra.
Qed.
Lemma area_atan x : 0 <= x -> area x <= atan x.
Proof.
  intros X. assert (D : forall t, is_derive (fun x => atan x - area x) t (/ (1 + t ^ 2) - wgt t)).
  { intros t. apply @is_derive_minus; [|apply area_derive]. replace (t ^ 2) with (Rsqr t) by (unfold Rsqr; ring). apply is_derive_atan. }
  destruct (MVT_gen (fun x => atan x - area x) 0 x (fun t => / (1 + t ^ 2) - wgt t)) as (c & _ & E). { intros; apply D. } { intros z _. exact (dcont _ _ _ (D z)). }
  cbv beta in E. rewrite atan_0, area_0 in E. pose proof (poly_wgt 0 c) as P. simpl in P. assert (/ (1 + c ^ 2) - wgt c >= 0). { simpl. unfold Rdiv in P. lra. } nra.
Qed.
Lemma area_limit : exists g, 0 < g /\ filterlim area (Rbar_locally p_infty) (locally g).
Proof.
  destruct (completeness (fun y => exists x, 0 <= x /\ y = area x)) as (g & U & L).
  { exists (PI / 2). intros y (x & X & ->). apply Rle_trans with (1 := area_atan x X). pose proof (atan_bound x). lra. }
  { exists (area 0), 0. split; [lra|trivial]. }
  exists g. split.
  { assert (area 1 <= g). { apply U. exists 1. split; [lra|trivial]. } pose proof (area_mono 0 1 ltac:(lra)). rewrite area_0 in *. lra. }
  intros P [e Q]. assert (X : exists x, 0 <= x /\ g - e < area x).
  { apply Classical_Prop.NNPP. intros N. assert (g <= g - e); [|pose proof (cond_pos e); lra]. apply L. intros y (x & X & ->). destruct (Rle_lt_dec (area x) (g - e)); trivial. exfalso. apply N. now exists x. }
  destruct X as (x & X0 & X). exists x. intros y Y. apply Q. unfold ball; simpl; unfold AbsRing_ball, abs, minus, plus, opp; simpl.
  pose proof (area_mono x y Y). assert (area y <= g). { apply U. exists y. split; [lra|trivial]. } apply Rabs_def1; lra.
Qed.
Theorem gauss_exists : exists G, 0 < G /\ all_R wgt G.
Proof.
  destruct area_limit as (g & P & L). exists (g - - g). split; [lra|]. apply (gen_derive area); trivial using area_derive, wgt_cont.
  apply lim_minus. apply (filterlim_ext (fun x => - area x)); [intros; symmetry; apply area_opp|]. apply (filterlim_comp _ _ _ area Ropp _ (locally g)); trivial. apply (filterlim_opp g).
Qed.

(** ** orthogonality *)
Definition ortho_value (G : R) (m n : nat) : R := if Nat.eqb m n then 2 ^ n * INR (fact n) * G else 0.
Definition prod (m n : nat) (x : R) : R := herm m x * herm n x * wgt x.
Lemma prod_cont m n x : continuous (prod m n) x.
Proof. apply (continuous_mult (K := R_AbsRing) (fun x => herm m x * herm n x)); [apply (continuous_mult (K := R_AbsRing))|]; auto using herm_cont, wgt_cont. Qed.
Lemma prod_derive m n x : is_derive (prod m n) x (2 * INR m * (herm_prev m x * herm n x * wgt x) - prod m (S n) x).
Proof.
  unfold prod. evar_last. { apply (is_derive_mult (fun x => herm m x * herm n x) wgt). { apply (is_derive_mult (herm m) (herm n)); try apply herm_derive. intros; apply Rmult_comm. } { apply wgt_derive. } { intros; apply Rmult_comm. } }
  unfold plus, mult; cbn -[herm INR]. rewrite (herm_down n x). ring.
Qed.
Lemma step_S m n I : all_R (prod m n) I -> all_R (prod (S m) (S n)) (2 * INR (S m) * I).
Proof.
  intros A. destruct (product_bound (S m) n) as (K & K0 & B). destruct (to_zero (prod (S m) n) K K0 B) as (Lp & Lm).
  assert (D := gen_derive (prod (S m) n) (fun x => 2 * INR (S m) * prod m n x - prod (S m) (S n) x) 0 0 (fun x => prod_derive (S m) n x)).
  specialize (D ltac:(intros x; apply (continuous_minus (V := R_NormedModule)); [apply (continuous_scal_r (V := R_NormedModule) (2 * INR (S m)) (prod m n)); apply prod_cont|apply prod_cont]) Lm Lp).
  apply (is_RInt_gen_scal (V := R_NormedModule) (prod m n) (2 * INR (S m))) in A. pose proof (is_RInt_gen_minus (V := R_NormedModule) _ _ _ _ A D) as E.
  replace (2 * INR (S m) * I) with (minus (scal (2 * INR (S m)) I) (0 - 0) : R) by (change (2 * INR (S m) * I + - (0 - 0) = 2 * INR (S m) * I); ring).
  refine (is_RInt_gen_ext _ _ _ _ E). apply filter_forall. intros ab x _. change (2 * INR (S m) * prod m n x + - (2 * INR (S m) * prod m n x - prod (S m) (S n) x) = prod (S m) (S n) x). ring.
Qed.
Lemma step_0 n : all_R (prod 0 (S n)) 0.
Proof.
  destruct (product_bound 0 n) as (K & K0 & B). destruct (to_zero (prod 0 n) K K0 B) as (Lp & Lm).
  assert (D := gen_derive (prod 0 n) (fun x => - prod 0 (S n) x) 0 0).
  specialize (D ltac:(intros x; evar_last; [apply prod_derive|cbn [herm_prev INR]; ring]) ltac:(intros x; apply (continuous_opp (V := R_NormedModule)), prod_cont) Lm Lp).
  apply (is_RInt_gen_opp (V := R_NormedModule)) in D. replace 0 with (opp (0 - 0) : R) by (change (- (0 - 0) = 0); ring).
  refine (is_RInt_gen_ext _ _ _ _ D). apply filter_forall. intros ab x _. change (- - prod 0 (S n) x = prod 0 (S n) x). ring.
Qed.
Theorem orthogonal (G : R) : all_R wgt G -> forall m n, all_R (prod m n) (ortho_value G m n).
Proof.
  intros A. assert (Sy : forall m n I, all_R (prod m n) I -> all_R (prod n m) I). { intros m n I. apply (is_RInt_gen_ext (V := R_NormedModule)). apply filter_forall. intros ab x _. change (herm m x * herm n x * wgt x = herm n x * herm m x * wgt x). ring. }
  induction m as [|m J]; intros [|n].
  - unfold ortho_value. simpl. replace (1 * 1 * G) with G by ring. refine (is_RInt_gen_ext _ _ _ _ A). apply filter_forall. intros ab x _. change (wgt x = 1 * 1 * wgt x). ring.
  - apply step_0.
  - apply Sy, step_0.
  - replace (ortho_value G (S m) (S n)) with (2 * INR (S m) * ortho_value G m n). { apply step_S, J. }
    unfold ortho_value. cbn [Nat.eqb]. destruct (Nat.eqb_spec m n) as [->|]; [|ring]. rewrite fact_simpl, mult_INR. simpl (2 ^ S n). ring.
Qed.
