(** * GhProof: Gauss-Hermite moments (C108) *)
From Coq Require Import List Bool Reals Lra Lia Psatz ZArith.
From Coquelicot Require Import Coquelicot.
From Verif Require Import PyBase GhModel GhOrtho.
Import ListNotations.
Open Scope R_scope.

(** ** what is said *)
(** the polynomials of an object come from its own calls *)
Definition own_polys (c : option (list (R -> R))) : Prop := match c with Some p => exists n, p = map herm (seq 0 n) | None => True end.
(** a line profile: a Gaussian of area A around v0 times a sum of Hermite polynomials of (v-v0)/sig *)
Fixpoint series (i : nat) (cs : list R) (w : R) : R := match cs with [] => 0 | c :: r => c * herm i w + series (S i) r w end.
Definition gaussian (A v0 sig v : R) : R := A / (sig * sqrt (2 * PI)) * exp (- ((v - v0) ^ 2 / (2 * sig ^ 2))).
Definition profile (A v0 sig : R) (cs : list R) (v : R) : R := gaussian A v0 sig v * series 0 cs ((v - v0) / sig).

(** ** cached polynomials *)
Lemma fill_own c n : own_polys c -> fill c n = map herm (seq 0 n).
Proof. unfold fill. destruct c as [p|]; trivial. intros (k & ->). rewrite map_length, seq_length. destruct (Nat.eqb_spec n k); congruence. Qed.
Lemma own_some n : own_polys (Some (map herm (seq 0 n))).
Proof. now exists n. Qed.

(** ** integrals of series *)
Lemma ortho_diag G l : ortho_value G l l = 2 ^ l * INR (fact l) * G.
Proof. unfold ortho_value. now rewrite Nat.eqb_refl. Qed.
Lemma series_integral (G : R) l : all_R wgt G -> forall cs i, all_R (fun x => series i cs x * herm l x * wgt x) ((if Nat.ltb l i then 0 else nth (l - i) cs 0) * ortho_value G l l).
Proof.
  intros A. induction cs as [|c r I]; intros i; cbn [series].
  - replace ((if Nat.ltb l i then 0 else nth (l - i) [] 0) * ortho_value G l l) with (scal 0 G : R). 2:{ change (0 * G = (if Nat.ltb l i then 0 else nth (l - i) [] 0) * ortho_value G l l). destruct (Nat.ltb l i); [ring|]. destruct (l - i)%nat; cbn [nth]; ring. }
    refine (is_RInt_gen_ext _ _ _ _ (is_RInt_gen_scal (V := R_NormedModule) wgt 0 G A)). apply filter_forall. intros ab x _. change (0 * wgt x = 0 * herm l x * wgt x). ring.
  - specialize (I (S i)). pose proof (is_RInt_gen_scal (V := R_NormedModule) _ c _ (orthogonal G A i l)) as B. pose proof (is_RInt_gen_plus (V := R_NormedModule) _ _ _ _ B I) as D.
    replace ((if Nat.ltb l i then 0 else nth (l - i) (c :: r) 0) * ortho_value G l l) with (plus (scal c (ortho_value G i l)) ((if Nat.ltb l (S i) then 0 else nth (l - S i) r 0) * ortho_value G l l) : R).
    + refine (is_RInt_gen_ext _ _ _ _ D). apply filter_forall. intros ab x _. change (c * (herm i x * herm l x * wgt x) + series (S i) r x * herm l x * wgt x = (c * herm i x + series (S i) r x) * herm l x * wgt x). ring.
    + change (c * ortho_value G i l + (if Nat.ltb l (S i) then 0 else nth (l - S i) r 0) * ortho_value G l l = (if Nat.ltb l i then 0 else nth (l - i) (c :: r) 0) * ortho_value G l l).
      destruct (Nat.ltb_spec l i), (Nat.ltb_spec l (S i)); try lia.
      * unfold ortho_value at 1. destruct (Nat.eqb_spec i l); [lia|ring].
      * assert (l = i) as -> by lia. rewrite Nat.sub_diag. cbn [nth]. ring.
      * unfold ortho_value at 1. destruct (Nat.eqb_spec i l); [lia|]. replace (l - i)%nat with (S (l - S i)) by lia. cbn [nth]. ring.
Qed.

(** ** the change of variable *)
Lemma subst_pos (g : R -> R) c s I : 0 < s -> all_R g I -> all_R (fun v => / s * g ((v - c) / s)) I.
Proof.
  intros S A P Q. specialize (A P Q). destruct A as [X Y (mx & HX) (my & HY) A]. unfold filtermapi.
  exists (fun v => X ((v - c) / s)) (fun v => Y ((v - c) / s)).
  - exists (mx * s + c). intros v V. apply HX. apply Rmult_lt_reg_r with s; trivial. replace ((v - c) / s * s) with (v - c) by (field; lra). lra.
  - exists (my * s + c). intros v V. apply HY. apply Rmult_lt_reg_r with s; trivial. replace ((v - c) / s * s) with (v - c) by (field; lra). lra.
  - intros a b Ha Hb. destruct (A _ _ Ha Hb) as (y & Iy & Py). exists y. split; trivial. cbn [fst snd] in *.
    refine (is_RInt_ext _ _ _ _ _ _ (is_RInt_comp_lin g (/ s) (- c / s) a b y _)).
    + intros x _. change (/ s * g (/ s * x + - c / s) = / s * g ((x - c) / s)). do 2 f_equal. field. lra.
    + replace (/ s * a + - c / s) with ((a - c) / s) by (field; lra). replace (/ s * b + - c / s) with ((b - c) / s) by (field; lra). exact Iy.
Qed.
Lemma subst_neg (g : R -> R) c s I : s < 0 -> all_R g I -> all_R (fun v => / s * g ((v - c) / s)) (- I).
Proof.
  intros S A P Q. assert (Q' : locally I (fun x => P (- x))). { apply (filterlim_opp I). exact Q. }
  specialize (A _ Q'). destruct A as [X Y (mx & HX) (my & HY) A]. unfold filtermapi.
  exists (fun v => Y ((v - c) / s)) (fun v => X ((v - c) / s)).
  - exists (my * s + c). intros v V. apply HY. apply Ropp_lt_cancel. apply Rmult_lt_reg_r with (- s); [lra|]. replace (- ((v - c) / s) * - s) with (v - c) by (field; lra). lra.
  - exists (mx * s + c). intros v V. apply HX. apply Ropp_lt_cancel. apply Rmult_lt_reg_r with (- s); [lra|]. replace (- ((v - c) / s) * - s) with (v - c) by (field; lra). lra.
  - intros a b Ha Hb. destruct (A _ _ Hb Ha) as (y & Iy & Py). exists (- y). split; trivial. cbn [fst snd] in *.
    refine (is_RInt_ext _ _ _ _ _ _ (is_RInt_comp_lin g (/ s) (- c / s) a b (- y) _)).
    + intros x _. change (/ s * g (/ s * x + - c / s) = / s * g ((x - c) / s)). do 2 f_equal. field. lra.
    + replace (/ s * a + - c / s) with ((a - c) / s) by (field; lra). replace (/ s * b + - c / s) with ((b - c) / s) by (field; lra). apply (is_RInt_swap (V := R_NormedModule)). exact Iy.
Qed.

(** ** moments of any series *)
Lemma root_2pi : 0 < sqrt (2 * PI) /\ sqrt (2 * PI) * sqrt (2 * PI) = 2 * PI.
Proof. pose proof PI_RGT_0. split; [apply sqrt_lt_R0; lra|]. apply sqrt_sqrt. lra. Qed.
Lemma alpha_gaussian A c s v : s <> 0 -> A * alpha ((v - c) / s) / s = gaussian A c s v.
Proof.
  intros S. destruct root_2pi as (P & _). unfold alpha, gaussian. replace (- (((v - c) / s) ^ 2) / 2) with (- ((v - c) ^ 2 / (2 * s ^ 2))) by (field; lra).
  field. split; lra.
Qed.
Lemma alpha_sq w : alpha w * alpha w = wgt w / (2 * PI).
Proof.
  destruct root_2pi as (P & E). unfold alpha, wgt. set (q := sqrt (2 * PI)) in *. rewrite <- E. replace (- (w * w)) with (- w ^ 2 / 2 + - w ^ 2 / 2) by field. rewrite exp_plus. field. lra.
Qed.
Lemma quad_all f I : all_R f I -> quad f m_infty p_infty = I.
Proof. intros A. apply (is_RInt_gen_unique (V := R_CompleteNormedModule)). exact A. Qed.
Lemma norm_pos l : exists N, 0 < N /\ all_R (fun x => herm l x * herm l x * exp (- (x * x))) N /\ forall cs, all_R (fun x => series 0 cs x * herm l x * wgt x) (nth l cs 0 * N).
Proof.
  destruct gauss_exists as (G & P & A). exists (ortho_value G l l). repeat split.
  - rewrite ortho_diag. repeat apply Rmult_lt_0_compat; trivial. { apply pow_lt; lra. } apply lt_0_INR, lt_O_fact.
  - exact (orthogonal G A l l).
  - intros cs. pose proof (series_integral G l A cs 0) as B. cbn [Nat.ltb Nat.leb] in B. rewrite Nat.sub_0_r in B. exact B.
Qed.
Lemma moment_integral (f : R -> R) A c s cs l N sgn : (forall v, f v = profile A c s cs v) -> s <> 0 -> A <> 0 -> 0 < N -> (forall g I, all_R g I -> all_R (fun v => / s * g ((v - c) / s)) (sgn * I)) ->
  all_R (fun x => series 0 cs x * herm l x * wgt x) (nth l cs 0 * N) ->
  quad (fun x => f x * (alpha ((x - c) / s) * herm l ((x - c) / s))) m_infty p_infty / A / (N / (2 * PI)) = sgn * nth l cs 0.
Proof.
  intros Ef S A0 N0 Su B. pose proof PI_RGT_0 as PP. apply Su in B. apply (is_RInt_gen_scal (V := R_NormedModule) _ (A / (2 * PI))) in B.
  rewrite (quad_all _ (A / (2 * PI) * (sgn * (nth l cs 0 * N)))). { field. repeat split; lra. }
  refine (is_RInt_gen_ext _ _ _ _ B). apply filter_forall. intros ab x _. set (w := (x - c) / s).
  change (A / (2 * PI) * (/ s * (series 0 cs w * herm l w * wgt w)) = f x * (alpha w * herm l w)). rewrite Ef.
  unfold profile. fold w. rewrite <- (alpha_gaussian A c s x S). fold w. replace (A * alpha w / s * series 0 cs w * (alpha w * herm l w)) with (A / s * series 0 cs w * herm l w * (alpha w * alpha w)) by (field; lra).
  rewrite alpha_sq. field. repeat split; lra.
Qed.

Definition whole_line := (m_infty, p_infty).
Lemma get_own c n l : own_polys c -> (l < n)%nat -> py_get (fill c n) (Z.of_nat l) = Some (herm l).
Proof.
  intros O L. rewrite (fill_own c n O). unfold py_get, py_index. rewrite map_length, seq_length. destruct (Z.leb_spec 0 (Z.of_nat l)); [|lia]. destruct (Z.ltb_spec (Z.of_nat l) (Z.of_nat n)); [|lia].
  rewrite Nat2Z.id, nth_error_map, (nth_error_nth' _ 0%nat) by (rewrite seq_length; lia). rewrite seq_nth by lia. reflexivity.
Qed.
Lemma own_exact m f l sgn cs : own_polys (cached m) -> sig m <> 0 -> amp m <> 0 -> (forall g I, all_R g I -> all_R (fun v => / sig m * g ((v - v0 m) / sig m)) (sgn * I)) ->
  (l < List.length (hj3 m) + 3)%nat -> (forall v, f v = profile (amp m) (v0 m) (sig m) cs v) ->
  snd (moment m (Some f) (Z.of_nat l) m_infty p_infty) = Ok (sgn * nth l cs 0).
Proof.
  intros O S A Su L Ef. unfold moment. rewrite (get_own _ _ _ O L). cbn [snd]. destruct (norm_pos l) as (N & N0 & HN & HS).
  rewrite (quad_all _ _ HN). f_equal. apply (moment_integral f _ _ _ _ _ _ sgn Ef S A N0 Su (HS cs)).
Qed.
(** the moment of order [l] of a profile is its coefficient of H_l *)
Theorem moment_of_profile m f cs l : own_polys (cached m) -> 0 < sig m -> amp m <> 0 -> (l < List.length (hj3 m) + 3)%nat ->
  (forall v, f v = profile (amp m) (v0 m) (sig m) cs v) ->
  snd (moment m (Some f) (Z.of_nat l) m_infty p_infty) = Ok (nth l cs 0).
Proof.
  intros O S A L Ef. rewrite (own_exact m f l 1 cs); trivial; try lra. { f_equal. ring. }
  intros g I B. rewrite Rmult_1_l. now apply subst_pos.
Qed.

(** ** the model's own function *)
Lemma series_dot hs i w : series i hs w = dot hs (map (fun H => H w) (map herm (seq i (List.length hs)))).
Proof. revert i. induction hs as [|h r I]; intros i; cbn [series List.length seq map]; [reflexivity|]. rewrite I. reflexivity. Qed.
Lemma skip_polys n : skipn 3 (map herm (seq 0 (n + 3))) = map herm (seq 3 n).
Proof. replace (n + 3)%nat with (3 + n)%nat by lia. reflexivity. Qed.
Lemma own_point c hs A v0 s v : own_polys c -> s <> 0 -> gh_point (fill c (List.length hs + 3)) A v0 s hs v = profile A v0 s (1 :: 0 :: 0 :: hs) v.
Proof.
  intros O S. unfold gh_point, profile. rewrite alpha_gaussian by trivial. f_equal. rewrite (fill_own _ _ O). unfold Hjs. rewrite skip_polys, <- series_dot. cbn [series herm]. ring.
Qed.
(** calling: every point of an array by itself, and what happens without h *)
Theorem called_pointwise c A v0 s hs vs : own_polys c -> s <> 0 -> hs <> [] ->
  snd (gh_f c A v0 s hs vs) = Ok (map (fun v => gaussian A v0 s v * (1 + series 3 hs ((v - v0) / s))) vs).
Proof.
  intros O S H. unfold gh_f. cbn [snd]. destruct hs as [|h hs]; [congruence|]. f_equal. apply map_ext. intros v. rewrite own_point by trivial. unfold profile. f_equal. cbn [series herm]. ring.
Qed.
Theorem without_h_refuted c A v0 s vs : (List.length vs > 1)%nat -> snd (gh_f c A v0 s [] vs) = Raise ValueError.
Proof. intros L. unfold gh_f. cbn [snd]. destruct (Nat.ltb_spec 1 (List.length vs)); [trivial|lia]. Qed.
Theorem cache_kept m f l a b c A v s hs vs : own_polys (cached m) -> own_polys c -> own_polys (Some (fst (moment m f l a b))) /\ own_polys (Some (fst (gh_f c A v s hs vs))).
Proof. intros O P. unfold moment, gh_f. cbn [fst]. rewrite !fill_own by trivial. split; apply own_some. Qed.
Lemma own_none m l : hj3 m <> [] -> own_polys (cached m) -> sig m <> 0 ->
  snd (moment m None l m_infty p_infty) = snd (moment m (Some (gh_point (fill (cached m) (List.length (hj3 m) + 3)) (amp m) (v0 m) (sig m) (hj3 m))) l m_infty p_infty).
Proof. intros H O S. unfold moment. cbn [snd]. destruct (py_get _ l); trivial. destruct (hj3 m); [congruence|]. reflexivity. Qed.
(** the moments of the model are its parameters: 1, 0, 0, h3, h4, ... *)
Theorem moments_are_parameters m l : own_polys (cached m) -> 0 < sig m -> amp m <> 0 -> hj3 m <> [] -> (l < 3 + List.length (hj3 m))%nat ->
  snd (moment m None (Z.of_nat l) m_infty p_infty) = Ok (nth l (1 :: 0 :: 0 :: hj3 m) 0).
Proof.
  intros O S A H L. rewrite own_none by (trivial; lra). apply moment_of_profile; trivial; try lia. intros v. apply own_point; trivial. lra.
Qed.
(** orders that there is no parameter for; an order below 0 counts from the last *)
Theorem moment_order m f l : own_polys (cached m) -> let n := Z.of_nat (3 + List.length (hj3 m)) in
  ((n <= l)%Z \/ (l < - n)%Z -> snd (moment m f l m_infty p_infty) = Raise IndexError) /\
  ((- n <= l < 0)%Z -> snd (moment m f l m_infty p_infty) = snd (moment m f (l + n) m_infty p_infty)).
Proof.
  intros O n. assert (Ln : Z.of_nat (List.length (fill (cached m) (List.length (hj3 m) + 3))) = n). { rewrite fill_own, map_length, seq_length by trivial. unfold n. lia. }
  split.
  - intros B. unfold moment. assert (py_get (fill (cached m) (List.length (hj3 m) + 3)) l = None) as ->; trivial. unfold py_get, py_index. rewrite Ln.
    destruct (Z.leb_spec 0 l); [destruct (Z.ltb_spec l n); [lia|trivial]|]. destruct (Z.leb_spec 0 (l + n)); [lia|trivial].
  - intros B. unfold moment. assert (py_get (fill (cached m) (List.length (hj3 m) + 3)) l = py_get (fill (cached m) (List.length (hj3 m) + 3)) (l + n)) as ->; trivial.
    unfold py_get, py_index. rewrite Ln. destruct (Z.leb_spec 0 l); [lia|]. destruct (Z.leb_spec 0 (l + n)); [|lia]. destruct (Z.ltb_spec (l + n) n); [trivial|lia].
Qed.
(** a width below 0 turns every moment over, also that of order 0 *)
Theorem negative_width_refuted m l : own_polys (cached m) -> sig m < 0 -> amp m <> 0 -> hj3 m <> [] -> (l < 3 + List.length (hj3 m))%nat ->
  snd (moment m None (Z.of_nat l) m_infty p_infty) = Ok (- nth l (1 :: 0 :: 0 :: hj3 m) 0).
Proof.
  intros O S A H L. rewrite own_none by (trivial; lra). rewrite (own_exact _ _ l (-1) (1 :: 0 :: 0 :: hj3 m)); trivial; try lra; try lia.
  - f_equal. ring.
  - intros g I B. replace (-1 * I) with (- I) by ring. now apply subst_neg.
  - intros v. apply own_point; trivial. lra.
Qed.
(** finite bounds: the norm is taken over the same numbers, which are not the same range of (v-v0)/sig *)
Lemma quad_finite f a b : (forall x, continuous f x) -> quad f (Finite a) (Finite b) = RInt f a b.
Proof. intros C. apply (RInt_gen_at_point (V := R_CompleteNormedModule)). apply (@ex_RInt_continuous R_CompleteNormedModule). intros; apply C. Qed.
Theorem finite_bounds_refuted : exists m x, snd (moment m None 0 (Finite 1) (Finite 2)) = Ok x /\ x > 1 /\ sig m = 1 /\ amp m = 1 /\ hj3 m = [0] /\ cached m = None.
Proof.
  pose proof PI_RGT_0 as PP.
  exists (GH 1 1 1 [0] None), (RInt (fun x => wgt (x - 1)) 1 2 / RInt wgt 1 2).
  assert (C1 : forall x, continuous (fun x => wgt (x - 1)) x). { intros x. apply (@ex_derive_continuous R_AbsRing R_NormedModule). unfold wgt. auto_derive. trivial. }
  assert (P2 : 0 < RInt wgt 1 2). { apply RInt_gt_0; [lra|intros; apply wgt_pos|intros; apply wgt_cont]. }
  assert (Lt : RInt wgt 1 2 < RInt (fun x => wgt (x - 1)) 1 2).
  { apply RInt_lt; [lra|intros; apply C1|intros; apply wgt_cont|]. intros x X. unfold wgt. apply exp_increasing. nra. }
  repeat split.
  - unfold moment. cbn [snd hj3 cached amp v0 sig fill List.length seq map py_get py_index Nat.add Z.leb Z.ltb Z.compare Z.of_nat Pos.of_succ_nat Pos.succ Pos.compare Pos.compare_cont Z.to_nat nth_error].
    f_equal. rewrite (quad_finite (fun x => herm 0 x * herm 0 x * exp (- (x * x)))).
    2:{ intros x. apply (@ex_derive_continuous R_AbsRing R_NormedModule). cbn [herm]. auto_derive. trivial. }
    match goal with |- quad ?f _ _ / _ / _ = _ => assert (E : forall x, f x = / (2 * PI) * wgt (x - 1)) end.
    { intros x. cbv beta. cbn [herm]. unfold gh_point, Hjs. cbn [skipn map]. unfold dot. cbn [combine map fold_right fst snd]. replace ((x - 1) / 1) with (x - 1) by field.
      pose proof (alpha_sq (x - 1)) as Q. rewrite !Rmult_0_l, Rplus_0_r, Rplus_0_r. replace (1 * alpha (x - 1) / 1 * 1 * (alpha (x - 1) * 1)) with (alpha (x - 1) * alpha (x - 1)) by field. rewrite Q. field. lra. }
    rewrite quad_finite. 2:{ intros x. refine (continuous_ext _ _ _ (fun t => eq_sym (E t)) _). apply (continuous_scal_r (V := R_NormedModule)), C1. }
    rewrite (RInt_ext _ (fun x => scal (/ (2 * PI)) (wgt (x - 1)))) by (intros x _; apply E). rewrite (RInt_scal (V := R_CompleteNormedModule)) by (apply (@ex_RInt_continuous R_CompleteNormedModule); intros; apply C1).
    rewrite (RInt_ext (fun x => herm 0 x * herm 0 x * exp (- (x * x))) wgt). 2:{ intros x _. cbn [herm]. unfold wgt. change (1 * 1 * exp (- (x * x)) = exp (- (x * x))). ring. }
    change (/ (2 * PI) * RInt (fun x => wgt (x - 1)) 1 2 / 1 / (RInt wgt 1 2 / (2 * PI)) = RInt (fun x => wgt (x - 1)) 1 2 / RInt wgt 1 2). field. split; lra.
  - assert (Q : forall a b, 0 < b -> b < a -> a / b > 1). { intros a b B0 BA. apply Rmult_lt_reg_r with b; trivial. replace (a / b * b) with a by (field; lra). lra. } now apply Q.
Qed.

(** ** shape *)
(** with h3 = h5 = ... = 0 the profile is symmetric about v0 *)
Theorem even_symmetric c A v0 s hs d : own_polys c -> s <> 0 -> hs <> [] -> (forall j, nth (2 * j) hs 0 = 0) -> snd (gh_f c A v0 s hs [v0 + d]) = snd (gh_f c A v0 s hs [v0 - d]).
Proof.
  intros O Sn N H. rewrite !called_pointwise by trivial. cbn [map]. unfold gaussian. replace (v0 + d - v0) with d by ring. replace (v0 - d - v0) with (- d) by ring. replace ((- d) ^ 2) with (d ^ 2) by ring.
  replace (- d / s) with (- (d / s)) by (field; trivial). generalize (d / s). intros w.
  assert (Q : forall cs i, (forall j, Nat.odd (i + j) = true -> nth j cs 0 = 0) -> series i cs w = series i cs (- w)).
  { induction cs as [|h r I]; intros i Z; cbn [series]; trivial. rewrite (I (S i)). 2:{ intros j J. apply (Z (S j)). now rewrite Nat.add_succ_r. }
    f_equal. rewrite herm_opp. destruct (Nat.odd i) eqn:Oi. { rewrite <- (Nat.add_0_r i) in Oi. specialize (Z 0%nat Oi). cbn [nth] in Z. subst h. ring. }
    rewrite <- Nat.negb_even in Oi. apply negb_false_iff in Oi. apply Nat.even_spec in Oi. destruct Oi as (k & ->). rewrite pow_1_even. ring. }
  rewrite (Q hs 3%nat); trivial. intros j J. apply Nat.odd_spec in J. destruct J as (k & J). replace j with (2 * (k - 1))%nat by lia. apply H.
Qed.
(** the hint reaches from 4 sig below v0 to 4 above: the Gaussian falls to exp(-8) of its height there *)
Theorem range_hint m : 0 < sig m -> let '(a, b) := gh_range m in a < v0 m < b /\ gaussian (amp m) (v0 m) (sig m) a = gaussian (amp m) (v0 m) (sig m) b /\ gaussian (amp m) (v0 m) (sig m) b = exp (-8) * gaussian (amp m) (v0 m) (sig m) (v0 m).
Proof.
  intros S. unfold gh_range. destruct root_2pi as (P & _). split; [lra|]. unfold gaussian.
  replace (v0 m - sig m * 4 - v0 m) with (- (sig m * 4)) by ring. replace (v0 m + sig m * 4 - v0 m) with (sig m * 4) by ring. replace (v0 m - v0 m) with 0 by ring.
  replace (- ((sig m * 4) ^ 2 / (2 * sig m ^ 2))) with (-8) by (field; lra). replace (- ((- (sig m * 4)) ^ 2 / (2 * sig m ^ 2))) with (-8) by (field; lra).
  replace (- (0 ^ 2 / (2 * sig m ^ 2))) with 0 by (field; lra). rewrite exp_0. split; ring.
Qed.

(** ** a concrete case *)
Example a_profile : let m := GH 2 10 3 [0.1; -0.05] None in
  snd (moment m None 0 m_infty p_infty) = Ok 1 /\ snd (moment m None 3 m_infty p_infty) = Ok 0.1 /\ snd (moment m None (-1) m_infty p_infty) = Ok (-0.05) /\ snd (moment m None 5 m_infty p_infty) = Raise IndexError.
Proof.
  intros m. assert (O : own_polys (cached m)) by exact I. assert (N : hj3 m <> []) by discriminate. assert (S : 0 < sig m) by (cbn; lra). assert (A : amp m <> 0) by (cbn; lra).
  split; [|split; [|split]].
  - apply (moments_are_parameters m 0); trivial. cbn; lia.
  - apply (moments_are_parameters m 3); trivial. cbn; lia.
  - destruct (moment_order m None (-1)%Z O) as (_ & Q). rewrite Q; [|unfold m; cbn [hj3 List.length]; lia]. apply (moments_are_parameters m 4); trivial. cbn; lia.
  - destruct (moment_order m None 5%Z O) as (Q & _). apply Q. left. unfold m; cbn [hj3 List.length]; lia.
Qed.
