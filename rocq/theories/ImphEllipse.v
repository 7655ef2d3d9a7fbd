(** * ImphEllipse: C127, ellipses fitted to isophotes *)
From Coq Require Import Reals Lra Lia List Bool.
From Verif Require Import PyBase ImphModel.
Import ListNotations.
Open Scope R_scope.

(** ** Specification *)
(** the point (x, y) lies on the ellipse with half axes ea along the direction ephi and eb across it, about (ex, ey) *)
Definition on_ellipse (l : ellipse) (x y : R) : Prop :=
  let u := (x - ex l) * cos (ephi l) + (y - ey l) * sin (ephi l) in
  let v := (y - ey l) * cos (ephi l) - (x - ex l) * sin (ephi l) in
  (u / ea l) ^ 2 + (v / eb l) ^ 2 = 1.
(** what a user does: assignments and reads *)
Inductive iop := ISet (o : isoset) | IRead.
Definition istep lsq fuel (s : iso) (o : iop) : iso := match o with ISet o => iso_set s o | IRead => fst (read lsq fuel s ea) end.
Definition irun lsq fuel (s : iso) (h : list iop) : iso := fold_left (istep lsq fuel) h s.
(** the values in force: the last ones assigned *)
Definition now_im (p : pic) (h : list iop) : pic := fold_left (fun c o => match o with ISet (SImdata q) => q | _ => c end) h p.
Definition now_level (v : option R) (h : list iop) : option R := fold_left (fun c o => match o with ISet (SLevel q) => Some q | ISet (SFixcenter q) => Some q | _ => c end) h v.
Definition now_keep (v : R) (h : list iop) : R := fold_left (fun c o => match o with ISet (SKeep q) => q | _ => c end) h v.
(** the solver answers with a rotation between 0 and 2 pi (after the exchange of axes) *)
Definition tame (lsq : pic -> R -> R -> ellipse -> ellipse) : Prop := forall im lv k st, 0 <= ephi (lsq im lv k st) < 3 * PI / 2.

Lemma tame_range lsq im lv k st : tame lsq -> 0 <= ephi (order_axes (lsq im lv k st)) < 2 * PI.
Proof. intros T. specialize (T im lv k st). pose proof PI_RGT_0. unfold order_axes. destruct (Rlt_dec (ea (lsq im lv k st)) (eb (lsq im lv k st))); cbn [ephi]; lra. Qed.
Lemma fit_tame lsq n s lv : tame lsq -> i_level s = Some lv ->
  fitEllipse lsq (S n) s = (Iso (i_im s) (i_level s) (i_keep s) true (order_axes (lsq (i_im s) lv (i_keep s) (i_ell s))), Ok tt).
Proof.
  intros T L. cbn [fitEllipse]. rewrite L. destruct (tame_range lsq (i_im s) lv (i_keep s) (i_ell s) T) as [A B].
  destruct (Rle_dec (2 * PI) _); [lra|]. destruct (Rlt_dec _ 0); [lra|]. trivial.
Qed.
Definition good (lsq : pic -> R -> R -> ellipse -> ellipse) (s : iso) : Prop := i_fitted s = true -> exists lv st, i_level s = Some lv /\ i_ell s = order_axes (lsq (i_im s) lv (i_keep s) st).
Lemma step_inv lsq n s o : tame lsq -> good lsq s -> good lsq (istep lsq (S n) s o).
Proof.
  intros T G. destruct o as [o|]; cbn [istep]; [destruct o; intros F; discriminate F|]. unfold read. destruct (i_fitted s) eqn:F; [exact G|].
  destruct (i_level s) as [lv|] eqn:L; [|cbn [fitEllipse]; rewrite L; cbn [fst]; exact G]. rewrite (fit_tame lsq n s lv T L). cbn [fst]. intros _. exists lv, (i_ell s). split; trivial.
Qed.
Lemma irun_inv lsq n p l h : tame lsq -> let s := irun lsq (S n) (newIso p l) h in good lsq s /\ i_im s = now_im p h /\ i_level s = now_level (i_level (newIso p l)) h /\ i_keep s = now_keep (1 / 100) h.
Proof.
  intros T. cbv zeta. unfold irun, now_im, now_level, now_keep. induction h as [|o h (G & A & B & C)] using rev_ind; [cbn; repeat split; intros F; discriminate F|].
  rewrite !fold_left_app. cbn [fold_left]. set (s := fold_left (istep lsq (S n)) h (newIso p l)) in *. split; [now apply step_inv|].
  destruct o as [o|]; [destruct o; cbn; auto|]. cbn [istep]. unfold read. destruct (i_fitted s); [auto|]. destruct (i_level s) as [lv|] eqn:L; [|cbn [fitEllipse]; rewrite L; cbn [fst]; rewrite L; auto].
  rewrite (fit_tame lsq n s lv T L). cbn. rewrite L. auto.
Qed.
(** C127: after any history of assignments and reads, a property reads from the solver's answer for the image, level and fraction of pixels last assigned, never from an earlier fit;
    the major axis is the larger one and the rotation lies between 0 and 2 pi; reading again gives the same without another fit *)
Theorem C127_iso_current : forall lsq n p l h lv, tame lsq -> now_level (i_level (newIso p l)) h = Some lv ->
  let s := irun lsq (S n) (newIso p l) h in
  exists st, let e := order_axes (lsq (now_im p h) lv (now_keep (1 / 100) h) st) in
    (forall A (f : ellipse -> A), snd (read lsq (S n) s f) = Ok (f e)) /\ eb e <= ea e /\ 0 <= ephi e < 2 * PI /\
    (forall A B (f : ellipse -> A) (g : ellipse -> B), read lsq (S n) (fst (read lsq (S n) s g)) f = (fst (read lsq (S n) s g), Ok (f e))).
Proof.
  intros lsq n p l h lv T V s. destruct (irun_inv lsq n p l h T) as (G & A & B & C). fold s in G, A, B, C. rewrite V in B.
  assert (E : exists st, forall X (f : ellipse -> X), read lsq (S n) s f = (fst (read lsq (S n) s ea), Ok (f (order_axes (lsq (now_im p h) lv (now_keep (1 / 100) h) st)))) /\ i_fitted (fst (read lsq (S n) s ea)) = true /\ i_ell (fst (read lsq (S n) s ea)) = order_axes (lsq (now_im p h) lv (now_keep (1 / 100) h) st)).
  { destruct (i_fitted s) eqn:F.
    - destruct (G F) as (lv' & st & L & E). exists st. intros X f. unfold read. rewrite F. cbn [fst]. rewrite <- A, <- C. replace lv with lv' by congruence. rewrite E. auto.
    - exists (i_ell s). intros X f. unfold read. rewrite F, (fit_tame lsq n s lv T B). cbn [fst i_fitted i_ell]. rewrite <- A, <- C. auto. }
  destruct E as (st & E). exists st. cbv zeta. split; [intros X f; now destruct (E X f) as (-> & _)|]. split; [|split; [now apply tame_range|]].
  - unfold order_axes. destruct (Rlt_dec _ _); cbn [ea eb]; lra.
  - intros X Y f g. destruct (E Y g) as (K & F & L). rewrite K. cbn [fst]. unfold read at 1. rewrite F, L. trivial.
Qed.
(** every assignment forces a new fit *)
Theorem C127_iso_refit : forall lsq n s o lv, tame lsq -> i_level (iso_set s o) = Some lv ->
  snd (read lsq (S n) (iso_set s o) (fun e => e)) = Ok (order_axes (lsq (i_im (iso_set s o)) lv (i_keep (iso_set s o)) (i_ell s))).
Proof.
  intros lsq n s o lv T L. unfold read. assert (F : i_fitted (iso_set s o) = false) by now destruct o. assert (E : i_ell (iso_set s o) = i_ell s) by now destruct o.
  rewrite F, (fit_tame lsq n _ lv T L), E. trivial.
Qed.
(** C127: exchanging the axes keeps the curve *)
Theorem C127_order_axes : forall l x y, on_ellipse (order_axes l) x y <-> on_ellipse l x y.
Proof.
  intros l x y. unfold order_axes. destruct (Rlt_dec (ea l) (eb l)); [|tauto]. unfold on_ellipse. cbn [ea eb ephi ex ey].
  rewrite cos_plus, sin_plus, cos_PI2, sin_PI2.
  replace ((x - ex l) * (cos (ephi l) * 0 - sin (ephi l) * 1) + (y - ey l) * (sin (ephi l) * 0 + cos (ephi l) * 1)) with ((y - ey l) * cos (ephi l) - (x - ex l) * sin (ephi l)) by ring.
  replace ((y - ey l) * (cos (ephi l) * 0 - sin (ephi l) * 1) - (x - ex l) * (sin (ephi l) * 0 + cos (ephi l) * 1)) with (- ((x - ex l) * cos (ephi l) + (y - ey l) * sin (ephi l))) by ring.
  set (u := (x - ex l) * cos (ephi l) + (y - ey l) * sin (ephi l)). set (v := (y - ey l) * cos (ephi l) - (x - ex l) * sin (ephi l)).
  replace ((- u / ea l) ^ 2) with ((u / ea l) ^ 2) by (unfold Rdiv; ring). rewrite Rplus_comm. tauto.
Qed.

(** ** The points of an ellipse *)
Lemma denom_pos a b t : a <> 0 -> b <> 0 -> 0 < a * sin t * (a * sin t) + b * cos t * (b * cos t).
Proof.
  intros A B. pose proof (sin2_cos2 t) as S. unfold Rsqr in S.
  replace (a * sin t * (a * sin t) + b * cos t * (b * cos t)) with (a * a * (sin t * sin t) + b * b * (cos t * cos t)) by ring.
  assert (0 < a * a) by nra. assert (0 < b * b) by nra. assert (0 <= sin t * sin t) by nra. assert (0 <= cos t * cos t) by nra.
  destruct (Rle_lt_or_eq_dec 0 (sin t * sin t)) as [P|P]; trivial.
  - assert (0 < a * a * (sin t * sin t)) by (apply Rmult_lt_0_compat; trivial). assert (0 <= b * b * (cos t * cos t)) by nra. lra.
  - assert (0 < cos t * cos t) by lra. assert (0 < b * b * (cos t * cos t)) by (apply Rmult_lt_0_compat; trivial). assert (0 <= a * a * (sin t * sin t)) by nra. lra.
Qed.
Lemma ray_on l th : ea l <> 0 -> eb l <> 0 -> on_ellipse l (th2r l th * cos th + ex l) (th2r l th * sin th + ey l).
Proof.
  intros A B. unfold on_ellipse. cbv zeta. set (r := th2r l th). 
  replace ((r * cos th + ex l - ex l) * cos (ephi l) + (r * sin th + ey l - ey l) * sin (ephi l)) with (r * cos (th - ephi l)) by (rewrite cos_minus; ring).
  replace ((r * sin th + ey l - ey l) * cos (ephi l) - (r * cos th + ex l - ex l) * sin (ephi l)) with (r * sin (th - ephi l)) by (rewrite sin_minus; ring).
  unfold r, th2r. set (t := th - ephi l). pose proof (denom_pos (ea l) (eb l) t A B) as P. set (d := ea l * sin t * (ea l * sin t) + eb l * cos t * (eb l * cos t)) in *.
  assert (Q : sqrt d * sqrt d = d) by (apply sqrt_sqrt; lra). assert (N : sqrt d <> 0) by (intros Z; rewrite Z in Q; lra).
  replace ((ea l * eb l * / sqrt d * cos t / ea l) ^ 2 + (ea l * eb l * / sqrt d * sin t / eb l) ^ 2) with (d / (sqrt d * sqrt d)) by (unfold d at 1; field; auto).
  rewrite Q. field. lra.
Qed.
(** C127: cartesian(n) are n points, all on the ellipse (half axes of any sign but not zero), the first again at the end *)
Theorem C127_points : forall s n, ea (i_ell s) <> 0 -> eb (i_ell s) <> 0 ->
  List.length (cartesian s n) = n /\ (forall x y, In (x, y) (cartesian s n) -> on_ellipse (i_ell s) x y).
Proof.
  intros s n A B. unfold cartesian, polar. split.
  - rewrite !map_length. destruct n as [|[|m]]; trivial. cbn [angles]. now rewrite map_length, seq_length.
  - intros x y I. apply in_map_iff in I. destruct I as ([r th] & E & I). apply in_map_iff in I. destruct I as (th' & E' & _). injection E' as <- <-. cbn [fst snd] in E. injection E as <- <-. now apply ray_on.
Qed.
Theorem C127_points_closed : forall s n d, (2 <= n)%nat -> nth 0 (cartesian s n) d = nth (n - 1) (cartesian s n) d /\ (forall i, (i < n)%nat -> snd (nth i (polar s n) d) = 2 * PI * INR i / INR (n - 1)).
Proof.
  intros s n d H. assert (N : forall i, (i < n)%nat -> nth i (angles n) 0 = 2 * PI * INR i / INR (n - 1)).
  { intros i I. destruct n as [|[|m]]; try lia. unfold angles. rewrite (nth_indep _ 0 ((fun i => INR i * (2 * PI / INR (S m))) 0%nat)) by (rewrite map_length, seq_length; trivial).
    rewrite (map_nth (fun i => INR i * (2 * PI / INR (S m)))), seq_nth by trivial. replace (S (S m) - 1)%nat with (S m) by lia. cbn [plus]. field. apply not_0_INR. discriminate. }
  assert (L : List.length (angles n) = n) by (destruct n as [|[|m]]; trivial; unfold angles; now rewrite map_length, seq_length).
  assert (P : forall i, (i < n)%nat -> nth i (polar s n) d = (th2r (i_ell s) (nth i (angles n) 0), nth i (angles n) 0)).
  { intros i I. unfold polar. rewrite (nth_indep _ d ((fun th => (th2r (i_ell s) th, th)) 0)) by (rewrite map_length; lia). now rewrite (map_nth (fun th => (th2r (i_ell s) th, th))). }
  split.
  - unfold cartesian. set (g := fun q : R * R => (fst q * cos (snd q) + ex (i_ell s), fst q * sin (snd q) + ey (i_ell s))).
    assert (LP : List.length (polar s n) = n) by (unfold polar; rewrite map_length; exact L).
    rewrite !(nth_indep _ d (g d)) by (rewrite map_length; lia). rewrite !(map_nth g). rewrite !P by lia. rewrite !N by lia.
    replace (2 * PI * INR 0 / INR (n - 1)) with 0 by (cbn; unfold Rdiv; ring). replace (2 * PI * INR (n - 1) / INR (n - 1)) with (2 * PI) by (field; apply not_0_INR; lia).
    unfold g, th2r. cbn [fst snd]. replace (2 * PI - ephi (i_ell s)) with (0 - ephi (i_ell s) + 2 * PI) by ring.
    rewrite sin_plus, cos_plus, sin_2PI, cos_2PI, sin_0, cos_0. 
    replace (sin (0 - ephi (i_ell s)) * 1 + cos (0 - ephi (i_ell s)) * 0) with (sin (0 - ephi (i_ell s))) by ring.
    replace (cos (0 - ephi (i_ell s)) * 1 - sin (0 - ephi (i_ell s)) * 0) with (cos (0 - ephi (i_ell s))) by ring. reflexivity.
  - intros i I. rewrite P by trivial. now apply N.
Qed.
(** along the major axis the distance is ea, across it eb; in between it lies between them *)
Theorem C127_radius : forall l, 0 < eb l -> eb l <= ea l -> th2r l (ephi l) = ea l /\ th2r l (ephi l + PI / 2) = eb l /\ forall th, eb l <= th2r l th <= ea l.
Proof.
  intros l P Q. assert (S : forall x, 0 < x -> sqrt (x * x) = x) by (intros x X; apply sqrt_square; lra). unfold th2r. repeat split.
  - replace (ephi l - ephi l) with 0 by ring. rewrite sin_0, cos_0. replace (ea l * 0 * (ea l * 0) + eb l * 1 * (eb l * 1)) with (eb l * eb l) by ring. rewrite S by trivial. field. lra.
  - replace (ephi l + PI / 2 - ephi l) with (PI / 2) by ring. rewrite sin_PI2, cos_PI2. replace (ea l * 1 * (ea l * 1) + eb l * 0 * (eb l * 0)) with (ea l * ea l) by ring. rewrite S by lra. field. lra.
  - set (t := th - ephi l). pose proof (sin2_cos2 t) as T. unfold Rsqr in T. set (d := ea l * sin t * (ea l * sin t) + eb l * cos t * (eb l * cos t)).
    assert (D : 0 < d) by (apply denom_pos; lra). assert (U : sqrt d <= ea l). { rewrite <- (S (ea l)) by lra. apply sqrt_le_1; [lra|nra|]. replace d with (ea l * ea l * (sin t * sin t + cos t * cos t) - (ea l * ea l - eb l * eb l) * (cos t * cos t)) by (unfold d; ring). rewrite T. assert (0 <= (ea l * ea l - eb l * eb l) * (cos t * cos t)) by (apply Rmult_le_pos; nra). lra. }
    assert (W : 0 < sqrt d) by now apply sqrt_lt_R0. apply Rmult_le_reg_r with (sqrt d); trivial. replace (ea l * eb l * / sqrt d * sqrt d) with (ea l * eb l) by (field; lra). nra.
  - set (t := th - ephi l). pose proof (sin2_cos2 t) as T. unfold Rsqr in T. set (d := ea l * sin t * (ea l * sin t) + eb l * cos t * (eb l * cos t)).
    assert (D : 0 < d) by (apply denom_pos; lra). assert (U : eb l <= sqrt d). { rewrite <- (S (eb l)) at 1 by lra. apply sqrt_le_1; [nra|lra|]. replace d with (eb l * eb l * (sin t * sin t + cos t * cos t) + (ea l * ea l - eb l * eb l) * (sin t * sin t)) by (unfold d; ring). rewrite T. assert (0 <= (ea l * ea l - eb l * eb l) * (sin t * sin t)) by (apply Rmult_le_pos; nra). lra. }
    assert (W : 0 < sqrt d) by now apply sqrt_lt_R0. apply Rmult_le_reg_r with (sqrt d); trivial. replace (ea l * eb l * / sqrt d * sqrt d) with (ea l * eb l) by (field; lra). nra.
Qed.

(** ** Findings *)
(** a level given to the constructor is lost: no property can be read before isolevel is assigned *)
Theorem C127_given_level_refuted : forall lsq n p v A (f : ellipse -> A), snd (read lsq (S n) (newIso p (Some v)) f) = Raise AttributeError /\ i_level (newIso p None) = Some (pmean p).
Proof. intros. split; reflexivity. Qed.
(** fixcenter changes the level *)
Theorem C127_fixcenter_refuted : forall s v, i_level (iso_set s (SFixcenter v)) = Some v.
Proof. reflexivity. Qed.
(** a solver that answers with negative rotations is asked again and again until the recursion limit *)
Theorem C127_negative_rotation_refuted : forall lsq n s A (f : ellipse -> A), (forall im lv k st, ephi (order_axes (lsq im lv k st)) < 0) -> i_fitted s = false -> i_level s <> None -> snd (read lsq n s f) = OutOfFuel.
Proof.
  intros lsq n s A f N F L. assert (E : forall n s, i_fitted s = false -> i_level s <> None -> exists s', fitEllipse lsq n s = (s', OutOfFuel)).
  { clear - N. induction n as [|n IH]; intros s F L; [now exists s|]. cbn [fitEllipse]. destruct (i_level s) as [lv|]; [|congruence].
    specialize (N (i_im s) lv (i_keep s) (i_ell s)). pose proof PI_RGT_0. destruct (Rle_dec (2 * PI) _); [lra|]. destruct (Rlt_dec _ 0); [|lra]. cbn [i_fitted]. rewrite F.
    destruct (IH (Iso (i_im s) (Some lv) (i_keep s) false (order_axes (lsq (i_im s) lv (i_keep s) (i_ell s)))) eq_refl ltac:(discriminate)) as (s' & ->). now exists s'. }
  unfold read. rewrite F. destruct (E n s F L) as (s' & ->). trivial.
Qed.
(** a rotation of 2 pi or more raises AttributeError when the next answer is in range, although the fit is then used *)
Theorem C127_large_rotation_refuted : forall lsq n s lv A (f : ellipse -> A), i_fitted s = false -> i_level s = Some lv ->
  let l1 := order_axes (lsq (i_im s) lv (i_keep s) (i_ell s)) in let l2 := order_axes (lsq (i_im s) lv (i_keep s) l1) in
  2 * PI <= ephi l1 -> 0 <= ephi l2 < 2 * PI ->
  snd (read lsq (S (S n)) s f) = Raise AttributeError /\ snd (read lsq (S (S n)) (fst (read lsq (S (S n)) s f)) f) = Ok (f l2).
Proof.
  intros lsq n s lv A f F L l1 l2 P Q.
  assert (E : fitEllipse lsq (S (S n)) s = (Iso (i_im s) (Some lv) (i_keep s) true l2, Raise AttributeError)).
  { change (fitEllipse lsq (S (S n)) s) with (match i_level s with None => (s, Raise AttributeError) | Some lv =>
          let l := order_axes (lsq (i_im s) lv (i_keep s) (i_ell s)) in
          let s1 := Iso (i_im s) (i_level s) (i_keep s) (i_fitted s) l in
          if Rle_dec (2 * PI) (ephi l) then
            match (if i_fitted s1 then (s1, Ok tt) else fitEllipse lsq (S n) s1) with (s2, Ok _) => (s2, Raise AttributeError) | bad => bad end
          else if Rlt_dec (ephi l) 0 then
            match (if i_fitted s1 then (s1, Ok tt) else fitEllipse lsq (S n) s1) with
            | (s2, Ok _) => let l2 := i_ell s2 in
                (Iso (i_im s2) (i_level s2) (i_keep s2) true (Ell (ea l2) (eb l2) (ephi l + 2 * PI * npfloor (- ephi l2 / 2 / PI)) (ex l2) (ey l2)), Ok tt)
            | bad => bad
            end
          else (Iso (i_im s) (i_level s) (i_keep s) true l, Ok tt) end). rewrite L. cbv zeta. fold l1. cbn [i_fitted]. rewrite F.
    destruct (Rle_dec (2 * PI) (ephi l1)) as [_|]; [|lra]. cbn [fitEllipse i_level i_im i_keep i_ell]. fold l2. destruct (Rle_dec (2 * PI) (ephi l2)); [lra|]. destruct (Rlt_dec (ephi l2) 0); [lra|]. trivial. }
  split; unfold read; rewrite F, E; reflexivity.
Qed.
(** the eccentricity of a true ellipse is nan: it divides the major by the minor axis *)
Theorem C127_eccentricity_refuted : forall l, 0 < eb l -> eb l < ea l -> eccentricity l = None /\ 1 < axisratio l.
Proof.
  intros l P Q. assert (A : 1 < axisratio l) by (unfold axisratio; apply Rmult_lt_reg_r with (eb l); trivial; replace (ea l / eb l * eb l) with (ea l) by (field; lra); lra).
  split; trivial. unfold eccentricity. destruct (Rle_dec _ 1); [nra|trivial].
Qed.
(** the points do not wait for the fit: before a property is read they are the unit circle around the middle of the image *)
Theorem C127_points_unfitted_refuted : forall lsq n p h x y, (forall o, In o h -> o <> IRead) -> In (x, y) (cartesian (irun lsq n (newIso p None) h) 100) -> (x - pnx p / 2) ^ 2 + (y - pny p / 2) ^ 2 = 1.
Proof.
  intros lsq n p h x y N I. assert (E : i_ell (irun lsq n (newIso p None) h) = Ell 1 1 0 (pnx p / 2) (pny p / 2)).
  { unfold irun. clear I. induction h as [|o h IH] using rev_ind; trivial. rewrite fold_left_app. cbn [fold_left]. destruct o as [o|]; [|exfalso; apply (N IRead); [apply in_or_app; right; left; trivial|trivial]].
    cbn [istep]. rewrite <- IH by (intros o' J; apply N; apply in_or_app; now left). now destruct o. }
  apply C127_points in I; [|rewrite E; cbn; lra|rewrite E; cbn; lra]. rewrite E in I. unfold on_ellipse in I. cbn [ea eb ephi ex ey] in I. rewrite cos_0, sin_0 in I.
  rewrite <- I. field.
Qed.
Example C127_iso_ex : tame (fun p lv k st => Ell 1 2 1 (pnx p / 2) (pny p / 2)) /\ now_level (i_level (newIso (Pic 0 4 4 1) (Some 7))) [IRead; ISet (SLevel 2); IRead; ISet (SKeep 3)] = Some 2.
Proof. split; [|reflexivity]. intros im lv k st. cbn [ephi]. pose proof PI2_1. split; lra. Qed.
