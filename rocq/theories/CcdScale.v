(** * CcdScale: display scalings and their inverses (C82) *)
From Coq Require Import Reals ZArith List Bool Arith Lia Lra.
From Verif Require Import PyBase AlgModel CcdModel CcdRegion CcdEdit.
Import ListNotations.
Open Scope R_scope.

(** ** The two directions of each scaling.  [shown] maps a stored pixel to the displayed value, [stored] back;
    [valid] are the pixels that can be shown, [sound] the displayed values that stand for a pixel. *)
Record pair_of := Pair { shown : R -> R; stored : R -> R; valid : R -> Prop; sound : R -> Prop }.
Definition describes (s : scaling) (p : pair_of) : Prop :=
  match s with
  | Linear | Power => p = Pair (fun x => x) (fun x => x) (fun _ => True) (fun _ => True)
  | Exp => p = Pair exp ln (fun _ => True) (fun y => 0 < y)
  | Asinh => p = Pair arcsinh sinh (fun _ => True) (fun _ => True)
  | SB o => p = Pair (fun x => o - 5/2 * (ln x / ln 10)) (fun y => Rpower 10 ((o - y) / (5/2))) (fun x => 0 < x) (fun _ => True)
  | _ => False
  end.
Lemma ln10_pos : 0 < ln 10. Proof. rewrite <- ln_1. apply ln_increasing; lra. Qed.
Lemma ln_quot x y : 0 < x -> 0 < y -> ln (x / y) = ln x - ln y.
Proof. intros X Y. unfold Rdiv. rewrite ln_mult, ln_Rinv; [ring|exact Y|exact X|now apply Rinv_0_lt_compat]. Qed.
Lemma sb_inv o y : Rpower 10 ((y - o) / - (5/2)) = Rpower 10 ((o - y) / (5/2)).
Proof. f_equal. field. Qed.
Lemma describes_fwd s p : describes s p -> fwd s = Some (shown p).
Proof. destruct s; cbn [describes]; try contradiction; intros ->; reflexivity. Qed.
Lemma describes_inv s p : describes s p -> exists g, inv s = Some g /\ forall y, g y = stored p y.
Proof.
  destruct s; cbn [describes]; try contradiction; intros ->; eexists; (split; [reflexivity|]); intros y; try reflexivity. apply sb_inv.
Qed.
Lemma pair_inverse s p : describes s p -> (forall x, valid p x -> stored p (shown p x) = x) /\ (forall y, sound p y -> shown p (stored p y) = y).
Proof.
  pose proof ln10_pos as L.
  destruct s as [| | | |? ? ? ?|?|o]; cbn [describes]; try contradiction; intros ->; cbn [shown stored valid sound]; split; intros; auto.
  - apply ln_exp.
  - now apply exp_ln.
  - apply sinh_arcsinh.
  - apply arcsinh_sinh.
  - unfold Rpower. replace ((o - (o - 5/2 * (ln x / ln 10))) / (5/2) * ln 10) with (ln x) by (field; lra). now apply exp_ln.
  - unfold Rpower. rewrite ln_exp. field. lra.
Qed.

(** Selecting a region and applying it back unedited leaves every pixel of the image as it was. *)
Theorem C82_unedited m p xl xu yl yu m1 : describes (scal m) p -> quiet m -> fits (nx (store m)) (ny (store m)) xl xu yl yu ->
  (forall i j, in_box xl xu yl yu i j -> valid p (px (store m) i j)) ->
  activateRange m (Box (xl,xu,yl,yu)) = (m1, Done) ->
  forall i j, px (store (fst (applyChanges m1))) i j = px (store m) i j.
Proof.
  intros D Q F V A i j. pose proof (describes_fwd _ _ D) as FW. destruct (describes_inv _ _ D) as (g & IV & G). destruct (pair_inverse _ _ D) as (PI & _).
  destruct (C80_box m (shown p) xl xu yl yu Q FW F) as (m1' & E & S1 & R1 & SH). rewrite A in E. injection E as <-.
  assert (SC : scal m1 = scal m).
  { unfold activateRange in A. fold (pre m) in A. rewrite (pre_quiet m Q) in A. cbv zeta in A. rewrite FW in A. injection A as <-. reflexivity. }
  destruct (is_linear (scal m)) eqn:L.
  - unfold applyChanges. rewrite SC, L. cbn [fstat with_lstat with_changed]. destruct (fstat m1); cbn; now rewrite S1.
  - unfold applyChanges. rewrite SC, L, IV. cbv zeta. rewrite R1. cbn [extract].
    rewrite <- S1 in F. destruct (sub_shows (store m1) xl xu yl yu F) as (SX & SY & _). destruct SH as (DX & DY & DP).
    replace (nx (data m1) =? nx (sub (store m1) (xl, xu, yl, yu)))%nat with true by (symmetry; apply Nat.eqb_eq; lia).
    replace (ny (data m1) =? ny (sub (store m1) (xl, xu, yl, yu)))%nat with true by (symmetry; apply Nat.eqb_eq; lia).
    cbn [andb]. assert (P : px (put (store m1) (xl,xu,yl,yu) (amap g (data m1))) i j = px (store m) i j).
    { pose proof (put_spec (store m1) xl xu yl yu (amap g (data m1)) i j F) as (P1 & P2).
      assert (DEC : in_box xl xu yl yu i j \/ ~ in_box xl xu yl yu i j) by (unfold in_box; lia). destruct DEC as [H|H].
      - rewrite P1 by exact H. cbn [amap px]. rewrite DP by exact H. rewrite G. apply PI. now apply V.
      - rewrite P2 by exact H. now rewrite S1. }
    cbn [fstat with_lstat with_changed apply_array with_store]. destruct (fstat m1); exact P.
Qed.
(** Edited data, applied and selected again, read back as they were. *)
Theorem C82_read_back m p xl xu yl yu m1 : describes (scal m) p -> copying (scal m) ->
  region m = Some (xl,xu,yl,yu) -> fits (nx (store m)) (ny (store m)) xl xu yl yu ->
  Z.of_nat (nx (data m)) = (xu - xl)%Z -> Z.of_nat (ny (data m)) = (yu - yl)%Z ->
  (forall i j, pixel (nx (data m)) (ny (data m)) i j -> sound p (px (data m) i j)) ->
  activateRange (fst (applyChanges m)) (Box (xl,xu,yl,yu)) = (m1, Done) ->
  forall i j, pixel (nx (data m)) (ny (data m)) i j -> px (data m1) i j = px (data m) i j.
Proof.
  intros D C R F X Y V A i j (PI & PJ). pose proof (describes_fwd _ _ D) as FW. destruct (describes_inv _ _ D) as (g & IV & G). destruct (pair_inverse _ _ D) as (_ & PB).
  assert (L : is_linear (scal m) = false) by (destruct (scal m); cbn in C; try contradiction; reflexivity).
  assert (E : store (fst (applyChanges m)) = put (store m) (xl,xu,yl,yu) (amap g (data m)) /\ changed (fst (applyChanges m)) = false).
  { unfold applyChanges. rewrite L, IV. cbv zeta. rewrite R. cbn [extract].
    destruct (sub_shows (store m) xl xu yl yu F) as (SX & SY & _).
    replace (nx (data m) =? nx (sub (store m) (xl, xu, yl, yu)))%nat with true by (symmetry; apply Nat.eqb_eq; lia).
    replace (ny (data m) =? ny (sub (store m) (xl, xu, yl, yu)))%nat with true by (symmetry; apply Nat.eqb_eq; lia).
    cbn [andb]. cbn [fstat with_lstat with_changed apply_array with_store]. destruct (fstat m); split; reflexivity. }
  destruct E as (E & CH). destruct (apply_fields m) as (SC & RG & _).
  assert (F' : fits (nx (store (fst (applyChanges m)))) (ny (store (fst (applyChanges m)))) xl xu yl yu) by (rewrite E; exact F).
  assert (FW' : fwd (scal (fst (applyChanges m))) = Some (shown p)) by (rewrite SC; exact FW).
  destruct (C80_box _ (shown p) xl xu yl yu (or_intror CH) FW' F') as (m1' & E1 & S1 & R1 & (DX & DY & DP)). rewrite A in E1. injection E1 as <-.
  destruct F as (F1 & F2 & F3 & F4).
  assert (IB : in_box xl xu yl yu (Z.to_nat xl + i) (Z.to_nat yl + j)) by (unfold in_box; lia).
  specialize (DP _ _ IB). replace (Z.to_nat xl + i - Z.to_nat xl)%nat with i in DP by lia. replace (Z.to_nat yl + j - Z.to_nat yl)%nat with j in DP by lia.
  rewrite DP, E. pose proof (put_spec (store m) xl xu yl yu (amap g (data m)) (Z.to_nat xl + i) (Z.to_nat yl + j) ltac:(unfold fits; lia)) as (P1 & _).
  rewrite P1 by exact IB. cbn [amap px]. rewrite G.
  replace (Z.to_nat xl + i - Z.to_nat xl)%nat with i by lia. replace (Z.to_nat yl + j - Z.to_nat yl)%nat with j by lia.
  apply PB, V. split; assumption.
Qed.
(** Surface brightness: a pixel of [x] counts on a pixel of area [a * b] is shown as -2.5 log10(x / area) - zeropoint;
    without calibration the request is refused and nothing changes. *)
Theorem C82_surface_brightness m : quiet m ->
  (forall z a b, zpt m = Some z -> pixscale m = Some (a, b) -> 0 < a -> 0 < b -> region m = None ->
     exists m', setScaling m SSb = (m', Done) /\ store m' = store m /\
       forall i j, 0 < px (store m) i j -> px (data m') i j = - (5/2) * (ln (px (store m) i j / (a * b)) / ln 10) - z) /\
  (zpt m = None \/ pixscale m = None -> setScaling m SSb = (m, Exc ValueError)) /\
  setScaling m SUnknown = (m, Exc KeyError).
Proof.
  intros Q. pose proof ln10_pos as L. split; [|split; [|reflexivity]].
  - intros z a b Z P A B R. unfold setScaling, make_scaling. rewrite Z, P.
    set (m0 := with_scal m _). assert (Q0 : quiet m0) by exact Q.
    destruct (C80_whole m0 _ Q0 eq_refl) as (m' & E & S & RG & (_ & _ & SH)).
    assert (RR : again (region m0) = Whole) by (change (region m0) with (region m); now rewrite R). rewrite RR.
    exists m'. split; [exact E|]. split; [exact S|]. intros i j PX.
    destruct (le_lt_dec (nx (store m)) i) as [HI|HI]; [|destruct (le_lt_dec (ny (store m)) j) as [HJ|HJ]].
    3: { specialize (SH i j). replace (i - Z.to_nat 0)%nat with i in SH by lia. replace (j - Z.to_nat 0)%nat with j in SH by lia.
         change (store m0) with (store m) in SH. rewrite SH by (unfold in_box; lia). unfold log10. rewrite ln_quot, ln_mult by nra. field. lra. }
    all: (unfold activateRange in E; fold (pre m0) in E; rewrite (pre_quiet m0 Q0) in E; cbv zeta in E; injection E as <-;
      unfold data, m0; cbn [with_active view own amap px extract with_scal store scal shares]; unfold log10; rewrite ln_quot, ln_mult by nra; field; lra).
  - intros H. unfold setScaling, make_scaling. destruct (zpt m), (pixscale m) as [[? ?]|]; try reflexivity. destruct H; discriminate.
Qed.
(** The logarithmic scaling of a non-negative image is increasing and stays between the requested limits: the
    darkest pixel is shown at the lower limit; the upper limit is reached exactly when the darkest pixel is 0. *)
Theorem C82_log mn mx lo up f : 0 <= mn -> mn < mx -> lo < up -> fwd (Log mn mx lo up) = Some f ->
  f mn = lo /\ f mx <= up /\ (f mx = up <-> mn = 0) /\
  (forall x y, mn <= x -> x < y -> y <= mx -> f x < f y) /\ (forall x, mn <= x <= mx -> lo <= f x <= up).
Proof.
  intros A B C E. injection E as <-.
  assert (E1 : 1 < exp 1) by (rewrite <- exp_0 at 1; apply exp_increasing; lra).
  set (h := fun x => ln ((exp 1 - 1) * (x - mn) / mx + 1) * (up - lo) + lo).
  assert (MX : 0 < mx) by lra.
  assert (AR : forall x y, mn <= x -> x < y -> 0 < (exp 1 - 1) * (x - mn) / mx + 1 /\ (exp 1 - 1) * (x - mn) / mx + 1 < (exp 1 - 1) * (y - mn) / mx + 1).
  { intros x y X Y. assert (I : 0 < / mx) by now apply Rinv_0_lt_compat. split.
    - assert (0 <= (exp 1 - 1) * (x - mn) / mx) by (apply Rmult_le_pos; [apply Rmult_le_pos; lra|lra]). lra.
    - apply Rplus_lt_compat_r. apply Rmult_lt_compat_r; [exact I|]. apply Rmult_lt_compat_l; lra. }
  assert (MONO : forall x y, mn <= x -> x < y -> y <= mx -> h x < h y).
  { intros x y X Y Z. destruct (AR x y X Y) as (P & Q). unfold h. apply Rplus_lt_compat_r. apply Rmult_lt_compat_r; [lra|]. now apply ln_increasing. }
  assert (H0 : h mn = lo). { unfold h. replace ((exp 1 - 1) * (mn - mn) / mx + 1) with 1 by (field; lra). rewrite ln_1. lra. }
  assert (HX : h mx <= up /\ (h mx = up <-> mn = 0)).
  { unfold h. replace ((exp 1 - 1) * (mx - mn) / mx + 1) with (exp 1 - (exp 1 - 1) * mn / mx) by (field; lra).
    assert (P : 0 <= (exp 1 - 1) * mn / mx). { apply Rmult_le_pos; [apply Rmult_le_pos; lra|]. left. now apply Rinv_0_lt_compat. }
    assert (P1 : mn = 0 \/ 0 < (exp 1 - 1) * mn / mx). { destruct A as [A|A]; [right|now left]. apply Rmult_lt_0_compat; [apply Rmult_lt_0_compat; lra|now apply Rinv_0_lt_compat]. }
    assert (P2 : 0 < exp 1 - (exp 1 - 1) * mn / mx).
    { replace (exp 1 - (exp 1 - 1) * mn / mx) with (((exp 1 - 1) * (mx - mn)) / mx + 1) by (field; lra). assert (0 < (exp 1 - 1) * (mx - mn) / mx) by (apply Rmult_lt_0_compat; [apply Rmult_lt_0_compat; lra|now apply Rinv_0_lt_compat]). lra. }
    destruct P1 as [P1|P1].
    - rewrite P1. replace (exp 1 - (exp 1 - 1) * 0 / mx) with (exp 1) by (field; lra). rewrite ln_exp. split; [lra|]. split; [auto|intros _; lra].
    - assert (LL : ln (exp 1 - (exp 1 - 1) * mn / mx) < 1) by (apply Rlt_le_trans with (ln (exp 1)); [apply ln_increasing; lra|rewrite ln_exp; lra]).
      assert (ln (exp 1 - (exp 1 - 1) * mn / mx) * (up - lo) < up - lo) by nra. split; [lra|]. split; [intros; lra|].
      intros Z0. rewrite Z0 in P1. unfold Rdiv in P1. rewrite Rmult_0_r, Rmult_0_l in P1. lra. }
  change (h mn = lo /\ h mx <= up /\ (h mx = up <-> mn = 0) /\ (forall x y, mn <= x -> x < y -> y <= mx -> h x < h y) /\ (forall x, mn <= x <= mx -> lo <= h x <= up)).
  split; [exact H0|]. destruct HX as (HX & HE). split; [exact HX|]. split; [exact HE|]. split; [exact MONO|].
  intros x (X1 & X2). split.
  - destruct X1 as [X1|X1]; [rewrite <- H0; left; apply MONO; lra|rewrite <- X1, H0; lra].
  - destruct X2 as [X2|X2]; [|rewrite X2; exact HX]. apply Rle_trans with (h mx); [left; apply MONO; lra|exact HX].
Qed.
(** It cannot be applied back: applyChanges always raises, and the image is unchanged. *)
Theorem C82_log_inverse_refuted m mn mx lo up : scal m = Log mn mx lo up -> applyChanges m = (m, Exc TypeError).
Proof. intros E. unfold applyChanges. rewrite E. reflexivity. Qed.
(** An image that is negative everywhere is shown through the logarithm of a negative number. *)
Theorem C82_log_negative_refuted : exists mn mx x, mn <= x <= mx /\ (exp 1 - 1) * (x - mn) / mx + 1 < 0.
Proof.
  exists (Ropp 2), (Ropp 1), (Ropp 1). split; [lra|]. pose proof (exp_ineq1 1 ltac:(lra)) as H.
  replace ((exp 1 - 1) * (- (1) - - (2)) / - (1) + 1) with (2 - exp 1) by field. lra.
Qed.
(** The power scaling is the identity, whatever the power asked for. *)
Theorem C82_power_refuted m : quiet m -> region m = None -> exists m', setScaling m SPower = (m', Done) /\ data m' = store m.
Proof.
  intros Q R. unfold setScaling. cbn [make_scaling]. set (m0 := with_scal m _). unfold activateRange. fold (pre m0).
  assert (Q0 : quiet m0) by exact Q. rewrite (pre_quiet m0 Q0). cbv zeta. change (region m0) with (region m). rewrite R. cbn [again].
  eexists. split; reflexivity.
Qed.
Example C82_case : let a := Arr 3 3 (fun i j => INR (i + j + 1)) in
  let m := Image a (Some (0,2,0,2)%Z) None (Arr 2 2 (fun _ _ => 1)) (SB 3) false CNone None true None None in
  (exists p, describes (scal m) p /\ (forall i j, valid p (px (store m) i j)) /\ (forall i j, sound p (px (data m) i j))) /\
  copying (scal m) /\ quiet m /\ fits 3 3 0 2 0 2 /\ Z.of_nat (nx (data m)) = (2 - 0)%Z.
Proof.
  cbv zeta. split; [|split; [exact I|split; [now right|split; [unfold fits; lia|reflexivity]]]].
  eexists. split; [reflexivity|]. split; [|intros; exact I]. intros i j. cbn [valid store px]. rewrite Nat.add_1_r. apply lt_0_INR. lia.
Qed.
