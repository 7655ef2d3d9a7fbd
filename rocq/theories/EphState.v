(** * EphState: asking an ephemeris object for other dates does not change it (C70); proper motion (C71) *)
From Coq Require Import List Bool ZArith Reals Lra Lia.
From Verif Require Import PyBase RealTrig EphModel.
Import ListNotations.
Open Scope R_scope.

Section Props.
Context {C Sys cal : Type}.
Variable caljd : cal -> @res R.
Variable now : R.
Variable hook : R -> R.
Variable coord : R -> R -> @res C.
Variable convert : Sys -> C -> @res C.
Let setJd := setJd caljd now hook.
Let call := call caljd now hook coord convert.
Let newEph := newEph caljd now hook.

(** what a user does with an object: set the date, ask for coordinates *)
Inductive uop := USet (d : @date cal) | UCall (w : @when cal) (y : option Sys).
Definition ustep (s : eph) (o : uop) : eph :=
  match o with USet d => match setJd d s with Ok (s', _) => s' | _ => s end | UCall w y => fst (fst (call w y s)) end.
Definition urun (s : eph) (l : list uop) : eph := fold_left ustep l s.
(** the date last set, specified without the object *)
Definition date_value (d : @date cal) : option R := match d with DJd x => Some x | DCal c => match caljd c with Ok x => Some x | _ => None end | DNow => Some now end.
Fixpoint last_set (x : R) (l : list uop) : R := match l with [] => x | USet d :: l => last_set (match date_value d with Some y => y | None => x end) l | UCall _ _ :: l => last_set x l end.

Definition coherent (s : eph) : Prop := kept s = hook (ejd s).
Lemma setJd_coherent d s s' w : setJd d s = Ok (s', w) -> coherent s' /\ vrange s' = vrange s /\ date_value d = Some (ejd s') /\ w = warn_of (vrange s) (ejd s').
Proof. unfold setJd, EphModel.setJd. destruct d as [x|c|]; cbn [to_jd date_value]; [|destruct (caljd c)|]; intros H; try discriminate; injection H as <- <-; repeat split. Qed.
Lemma call_loop_range l : forall s s' w r, call_loop caljd now hook coord l s = (s', w, r) -> vrange s' = vrange s.
Proof.
  induction l as [|d l IH]; intros s s' w r; cbn [call_loop]; [intros H; now injection H as <- _ _|]. fold setJd. destruct (setJd d s) as [[s1 w1]| |] eqn:E; [|intros H; now injection H as <- _ _..].
  destruct (setJd_coherent _ _ _ _ E) as (_ & V & _). destruct (coord (ejd s1) (kept s1)); [|intros H; now injection H as <- _ _..]. destruct (call_loop _ _ _ _ l s1) as [[s2 w2] r2] eqn:E2. intros H; injection H as <- _ _. now rewrite (IH _ _ _ _ E2).
Qed.
Lemma call_restores w y s : coherent s -> fst (fst (call w y s)) = s.
Proof.
  intros K. unfold call, EphModel.call. destruct w as [|x|l]; [reflexivity| |].
  - destruct x as [x|]; cbv iota beta; destruct (call_loop _ _ _ _ _ s) as [[s1 w1] r] eqn:E; apply call_loop_range in E; cbn [EphModel.setJd to_jd fst]; destruct s; cbn in *; now rewrite E, K.
  - cbv iota beta; destruct (call_loop _ _ _ _ _ s) as [[s1 w1] r] eqn:E; apply call_loop_range in E; cbn [EphModel.setJd to_jd fst]; destruct s; cbn in *; now rewrite E, K.
Qed.
Lemma run_invariant l : forall s, coherent s -> let s' := urun s l in coherent s' /\ vrange s' = vrange s /\ ejd s' = last_set (ejd s) l.
Proof.
  induction l as [|o l IH]; intros s K; [repeat split; trivial|]. cbn [urun fold_left]. fold (urun (ustep s o) l). assert (A : coherent (ustep s o) /\ vrange (ustep s o) = vrange s /\ ejd (ustep s o) = match o with USet d => match date_value d with Some y => y | None => ejd s end | _ => ejd s end).
  { destruct o as [d|w y]; cbn [ustep]; [|now rewrite call_restores]. destruct (setJd d s) as [[s' w]| |] eqn:E.
    - destruct (setJd_coherent _ _ _ _ E) as (A & B & D & _). rewrite D. repeat split; trivial.
    - assert (date_value d = None) as -> by (unfold setJd, EphModel.setJd in E; destruct d; cbn [to_jd date_value] in *; try discriminate; now destruct (caljd c)). repeat split; trivial.
    - assert (date_value d = None) as -> by (unfold setJd, EphModel.setJd in E; destruct d; cbn [to_jd date_value] in *; try discriminate; now destruct (caljd c)). repeat split; trivial. }
  destruct A as (A & B & D). destruct (IH _ A) as (A' & B' & D'). repeat split; [trivial|congruence|]. rewrite D', D. now destruct o.
Qed.
Lemma new_coherent r s : newEph r = Ok s -> coherent s /\ ejd s = 2451545.
Proof. unfold newEph, EphModel.newEph. destruct r as [[a b]|]; [destruct (opt_jd _ _ a); try discriminate; destruct (opt_jd _ _ b); try discriminate|]; intros H; injection H as <-; now split. Qed.
(** after any history, the date is the one last set (2000.0 before), the coordinates are those of that date and no call changes anything *)
Theorem C70_history : forall r s0 l, newEph r = Ok s0 -> let s := urun s0 l in
  ejd s = last_set 2451545 l /\ vrange s = vrange s0 /\
  (forall w y, fst (fst (call w y s)) = s) /\
  call WHere None s = (s, [], match coord (last_set 2451545 l) (hook (last_set 2451545 l)) with Ok c => Ok (One c) | Raise e => Raise e | OutOfFuel => OutOfFuel end).
Proof.
  intros r s0 l H s. destruct (new_coherent _ _ H) as [K J]. destruct (run_invariant l s0 K) as (K' & V & E). fold s in K', V, E. rewrite J in E. split; [exact E|]. split; [exact V|]. split; [intros; now apply call_restores|].
  unfold call, EphModel.call. rewrite K', E. now destruct (coord _ _).
Qed.
Lemma loop_spec l : forall s s' w cs, call_loop caljd now hook coord l s = (s', w, Ok cs) -> Forall2 (fun d c => exists x, date_value d = Some x /\ coord x (hook x) = Ok c) l cs.
Proof.
  induction l as [|d l IH]; intros s s' w cs; cbn [call_loop]; [intros H; injection H as _ _ <-; constructor|]. fold setJd. destruct (setJd d s) as [[s1 w1]| |] eqn:E; try discriminate. destruct (setJd_coherent _ _ _ _ E) as (K & V & D & _).
  destruct (coord (ejd s1) (kept s1)) as [c| |] eqn:Q; try discriminate. destruct (call_loop _ _ _ _ l s1) as [[s2 w2] r2] eqn:E2. destruct r2 as [cs2| |]; try discriminate. intros H; injection H as _ _ <-. constructor; [|now apply IH with s1 s2 w2]. exists (ejd s1). split; trivial. now rewrite <- K.
Qed.
Lemma loop_ok l : forall s, (forall d, In d l -> exists x c, date_value d = Some x /\ coord x (hook x) = Ok c) -> exists s' w cs, call_loop caljd now hook coord l s = (s', w, Ok cs).
Proof.
  induction l as [|d l IH]; intros s A; cbn [call_loop]; [eexists; eexists; eexists; reflexivity|]. fold setJd. destruct (A d (or_introl eq_refl)) as (x & c & D & Q).
  destruct (setJd d s) as [[s1 w1]| |] eqn:E.
  - destruct (setJd_coherent _ _ _ _ E) as (K & V & D' & _). rewrite D in D'. injection D' as ->. rewrite K, Q. destruct (IH s1) as (s2 & w2 & cs & ->); [intros; apply A; now right|]. eexists; eexists; eexists; reflexivity.
  - exfalso. unfold setJd, EphModel.setJd in E; destruct d; cbn [to_jd date_value] in *; try discriminate; destruct (caljd c0); discriminate.
  - exfalso. unfold setJd, EphModel.setJd in E; destruct d; cbn [to_jd date_value] in *; try discriminate; destruct (caljd c0); discriminate.
Qed.
Lemma convert_all_spec y l l' : convert_all convert y l = Ok l' <-> Forall2 (fun c c' => convert y c = Ok c') l l'.
Proof.
  revert l'. induction l as [|c l IH]; intros l'; cbn [convert_all].
  - split; [intros H; injection H as <-; constructor|intros H; now inversion H].
  - split.
    + destruct (convert y c) as [c'| |] eqn:E; try discriminate. destruct (convert_all convert y l) as [l2| |] eqn:E2; try discriminate. intros H; injection H as <-. constructor; trivial. now apply IH.
    + intros H; inversion H; subst. rewrite H2. apply IH in H4. now rewrite H4.
Qed.
Lemma call_many l y s : coherent s -> snd (call (WMany l) y s) = match snd (call_loop caljd now hook coord l s) with Ok cs => match (match y with Some y => convert_all convert y cs | None => Ok cs end) with Ok l' => Ok (Many l') | Raise e => Raise e | OutOfFuel => OutOfFuel end | Raise e => Raise e | OutOfFuel => OutOfFuel end.
Proof. intros K. unfold call, EphModel.call. cbv iota beta. destruct (call_loop _ _ _ _ l s) as [[s1 w1] r]. reflexivity. Qed.
(** many dates at once: each answer is the one the object gives when its date is set, in the same order *)
Definition alone (s : eph) (d : @date cal) (y : option Sys) : @res (@answer C) := match setJd d s with Ok (s', _) => snd (call WHere y s') | Raise e => Raise e | OutOfFuel => OutOfFuel end.
Lemma alone_spec s d y c : alone s d y = Ok (One c) <-> exists x b, date_value d = Some x /\ coord x (hook x) = Ok b /\ match y with Some y => convert y b = Ok c | None => b = c end.
Proof.
  unfold alone. destruct (setJd d s) as [[s' w]| |] eqn:E.
  - destruct (setJd_coherent _ _ _ _ E) as (K & _ & D & _). unfold call, EphModel.call. cbn [snd]. rewrite K, D. split.
    + destruct (coord (ejd s') (hook (ejd s'))) as [b| |] eqn:Q; try discriminate. intros H. exists (ejd s'), b. split; [reflexivity|]. split; [trivial|]. destruct y as [y|]; [|now injection H]. cbn [convert_all] in H. destruct (convert y b); try discriminate. now injection H as ->.
    + intros (x & b & X & Q & H). injection X as <-. rewrite Q. destruct y as [y|]; [|now subst]. cbn [convert_all]. now rewrite H.
  - split; [discriminate|]. intros (x & b & X & _). exfalso. unfold setJd, EphModel.setJd in E; destruct d; cbn [to_jd date_value] in *; try discriminate; destruct (caljd c0); discriminate.
  - split; [discriminate|]. intros (x & b & X & _). exfalso. unfold setJd, EphModel.setJd in E; destruct d; cbn [to_jd date_value] in *; try discriminate; destruct (caljd c0); discriminate.
Qed.
Theorem C70_many : forall r s0 ops l y, newEph r = Ok s0 -> let s := urun s0 ops in forall out, snd (call (WMany l) y s) = Ok out <-> exists cs, out = Many cs /\ Forall2 (fun d c => alone s d y = Ok (One c)) l cs.
Proof.
  intros r s0 ops l y H s out. destruct (new_coherent _ _ H) as [K0 _]. destruct (run_invariant ops s0 K0) as (K & _). fold s in K. rewrite call_many by trivial. split.
  - destruct (call_loop _ _ _ _ l s) as [[s1 w1] r1] eqn:E. cbn [snd]. destruct r1 as [cs| |]; try discriminate. apply loop_spec in E. destruct y as [y|].
    + destruct (convert_all convert y cs) as [l'| |] eqn:V; try discriminate. intros Q; injection Q as <-. exists l'. split; trivial. apply convert_all_spec in V. clear - E V. revert l' V. induction E as [|d c l cs (x & D & Q) E IH]; intros l' V; inversion V; subst; constructor; [|now apply IH]. apply alone_spec. now exists x, c.
    + intros Q; injection Q as <-. exists cs. split; trivial. clear - E. induction E as [|d c l cs (x & D & Q) E IH]; constructor; trivial. apply alone_spec. now exists x, c.
  - intros (cs & -> & F). destruct (loop_ok l s) as (s' & w & bs & E).
    { intros d I. clear - F I. induction F as [|d' c l cs A F IH]; [destruct I|]. destruct I as [->|I]; [|now apply IH]. apply alone_spec in A. destruct A as (x & b & X & Q & _). now exists x, b. }
    rewrite E. cbn [snd]. apply loop_spec in E. assert (G : match y with Some y => Forall2 (fun b c => convert y b = Ok c) bs cs | None => bs = cs end).
    { clear - F E. revert cs F. induction E as [|d b l bs (x & D & Q) E IH]; intros cs F; inversion F; subst; [destruct y; constructor|]. apply alone_spec in H1. destruct H1 as (x' & b' & D' & Q' & Z). rewrite D in D'. injection D' as <-. rewrite Q in Q'. injection Q' as <-. specialize (IH _ H3). destruct y; [now constructor|]. now subst. }
    destruct y as [y|]; [|now subst]. apply convert_all_spec in G. now rewrite G.
Qed.
(** one date: the only answer of the list with that date *)
Theorem C70_one : forall r s0 ops x y, newEph r = Ok s0 -> let s := urun s0 ops in snd (call (WOne x) y s) = alone s (match x with Some x => DJd x | None => DNow end) y.
Proof.
  intros r s0 ops x y H s. destruct (new_coherent _ _ H) as [K0 _]. destruct (run_invariant ops s0 K0) as (K & _). fold s in K. unfold alone, call, EphModel.call, setJd, EphModel.setJd. destruct x as [x|]; cbn [call_loop EphModel.setJd to_jd snd fst kept ejd]; destruct (coord _ _); reflexivity.
Qed.
(** a warning exactly for dates outside of the range *)
Definition outside (r : option R * option R) (x : R) : Prop := (exists lo, fst r = Some lo /\ x < lo) \/ (exists hi, snd r = Some hi /\ hi < x).
Theorem C70_warning : forall s x s' w, setJd (DJd x) s = Ok (s', w) -> (w <> [] <-> outside (vrange s) x) /\ (length w <= 1)%nat.
Proof.
  intros s x s' w H. injection H as _ <-. destruct (vrange s) as [lo hi]. unfold warn_of, outside. cbn [fst snd]. split.
  - split.
    + destruct lo as [lo|]; [destruct (Rlt_dec x lo)|]; [intros _; left; now exists lo| |]; (destruct hi as [hi|]; [destruct (Rlt_dec hi x)|]; [intros _; right; now exists hi|now intros []|now intros []]).
    + intros [(v & -> & L)|(v & -> & L)].
      * destruct (Rlt_dec x v); [discriminate|lra].
      * destruct lo as [lo|]; [destruct (Rlt_dec x lo); [discriminate|]|]; (destruct (Rlt_dec v x); [discriminate|lra]).
  - destruct lo as [lo|]; [destruct (Rlt_dec x lo)|]; [simpl; lia| |]; destruct hi as [hi|]; try destruct (Rlt_dec hi x); simpl; lia.
Qed.

(** ** the registry of solar system objects, and the objects a user took from it *)
Inductive rop := RTake (n : nat) | RUse (h : nat) (o : uop) | RAsk (n : nat) (w : @when cal) (y : option Sys).
Definition rstate := (registry * list eph)%type.
Fixpoint set_nth (h : nat) (s : eph) (l : list eph) : list eph := match h, l with _, [] => [] | O, _ :: l => s :: l | S h, x :: l => x :: set_nth h s l end.
Definition rstep (st : rstate) (o : rop) : rstate :=
  let '(g, hs) := st in
  match o with
  | RTake n => match get_object g n with Ok s => (g, hs ++ [s]) | _ => (g, hs) end
  | RUse h u => match nth_error hs h with Some s => (g, set_nth h (ustep s u) hs) | None => (g, hs) end
  | RAsk n w y => (fst (fst (get_coords caljd now hook coord convert g n w y)), hs)
  end.
Definition fresh_registry (g : registry) : Prop := forall n e, find_entry n g = Some e -> exists s r, (e = Obj s \/ e = Cls s) /\ newEph r = Ok s.
Lemma put_same n s g : find_entry n g = Some (Obj s) -> put_entry n (Obj s) g = g.
Proof. induction g as [|[k e] g IH]; cbn [find_entry put_entry]; [discriminate|]. destruct (Nat.eqb_spec k n) as [->|]; [intros H; injection H as ->; reflexivity|intros H; now rewrite IH]. Qed.
(** whatever was done before, also to objects taken from it, the registry gives the coordinates that a new object gives for that date *)
Theorem C70_registry : forall g l n w y, fresh_registry g -> let st := fold_left rstep l (g, []) in
  fst st = g /\ snd (get_coords caljd now hook coord convert (fst st) n w y) = match find_entry n g with None => Raise KeyError | Some (Obj s) | Some (Cls s) => snd (call w y s) end /\
  get_object (fst st) n = match find_entry n g with None => Raise KeyError | Some (Obj s) | Some (Cls s) => Ok s end.
Proof.
  intros g l n w y F st. assert (G : fst st = g).
  { unfold st. generalize (@nil eph) as hs. induction l as [|o l IH]; intros hs; [reflexivity|]. cbn [fold_left]. assert (Q : exists hs', rstep (g, hs) o = (g, hs')).
    { destruct o as [m|h u|m w' y']; cbn [rstep].
      - destruct (get_object g m); eauto.
      - destruct (nth_error hs h); eauto.
      - exists hs. f_equal. unfold get_coords. destruct (find_entry m g) as [[s|s]|] eqn:E; [|destruct (EphModel.call _ _ _ _ _ w' y' s) as [[? ?] ?]; reflexivity|reflexivity].
        destruct (F _ _ E) as (s' & r & [Q|Q] & N); [injection Q as <-|discriminate]. pose proof (call_restores w' y' s (proj1 (new_coherent _ _ N))) as CR. unfold call in CR. destruct (EphModel.call _ _ _ _ _ w' y' s) as [[s2 w2] r2]. cbn [fst] in *. subst. now apply put_same. }
    destruct Q as [hs' ->]. apply IH. }
  split; [exact G|]. rewrite G. split; [|unfold get_object; now destruct (find_entry n g) as [[|]|]]. unfold get_coords, call. destruct (find_entry n g) as [[s|s]|]; [| |reflexivity]; destruct (EphModel.call _ _ _ _ _ w y s) as [[? ?] ?]; reflexivity.
Qed.
End Props.

(** ** C71: proper motion *)
(** the position moves linearly: from the catalog position at the catalog epoch by the given arcseconds per Julian year *)
Definition asec_of_degrees (x : R) : R := x * 3600.
Theorem C71_linear : forall asecperrad p jd, asecperrad = 180 * 3600 / PI -> let y := (jd - jd0 p) / 365.25 in
  asec_of_degrees (pm_ra asecperrad p (dyr p jd) - ra0 p) = y * dra p /\ asec_of_degrees (pm_dec asecperrad p (dyr p jd) - dec0 p) = y * ddec p.
Proof. intros A p jd -> y. pose proof PI_RGT_0. unfold asec_of_degrees, pm_ra, pm_dec, dyr, deg, y. split; field; lra. Qed.
(** the true motion on the sky: drastar arcseconds of great circle per year; setting drastar sets it and nothing else *)
Theorem C71_drastar : forall p v, cos (rad (dec0 p)) <> 0 -> let q := set_drastar v p in drastar q = v /\ ra0 q = ra0 p /\ dec0 q = dec0 p /\ ddec q = ddec p /\ jd0 q = jd0 p /\ distpc0 q = distpc0 p /\ rv q = rv p /\
  (forall asecperrad jd, asecperrad = 180 * 3600 / PI -> cos (rad (dec0 p)) * asec_of_degrees (pm_ra asecperrad q (dyr q jd) - ra0 q) = (jd - jd0 p) / 365.25 * v).
Proof. intros p v N q. split; [unfold q, drastar, set_drastar; cbn [dra dec0]; field; trivial|]. repeat split. intros A jd E. rewrite (proj1 (C71_linear A q jd E)). unfold q, set_drastar. cbn [dra jd0]. field. split; [lra|trivial]. Qed.
(** the distance changes by the radial velocity times the time: with 3600*24*365.25 seconds per year, distances in km *)
Theorem C71_distance : forall cmperpc p jd d, 0 < cmperpc -> distpc0 p = Some d -> exists d', pm_dist (365.25 * 86400) cmperpc p (dyr p jd) = Some d' /\ (d' - d) * (cmperpc / 100000) = rv p * ((jd - jd0 p) * 86400).
Proof. intros c p jd d Hc E. unfold pm_dist. rewrite E. eexists. split; [reflexivity|]. unfold dyr. field. lra. Qed.
(** ... and may become negative *)
Theorem C71_distance_refuted : exists p jd d', distpc0 p = Some 1 /\ pm_dist (365.25 * 86400) 3.08568025e18 p (dyr p jd) = Some d' /\ d' < 0.
Proof. exists (PM 0 0 0 0 2451545 (Some 1) (-300)), (2451545 + 365.25 * 10000). eexists. split; [reflexivity|]. split; [reflexivity|]. unfold dyr. cbn [jd0 rv]. lra. Qed.
(** the coordinates say for which date they are: their epoch is in Julian years from J2000 *)
Theorem C71_output : forall asecperrad secperyr cmperpc p jd, exists ra dec dist epoch, pm_coord asecperrad secperyr cmperpc p jd (dyr p jd) = Ok (ra, dec, dist, epoch) /\
  ra = pm_ra asecperrad p (dyr p jd) /\ dec = pm_dec asecperrad p (dyr p jd) /\ dist = pm_dist secperyr cmperpc p (dyr p jd) /\ (epoch - 2000) * 365.25 = jd - 2451545.
Proof. intros. do 4 eexists. split; [reflexivity|]. repeat split. lra. Qed.
(** two dates: the position at the second from that at the first (a catalog of another epoch moves the same way) *)
Theorem C71_epoch : forall asecperrad p jd1 jd2, let p1 := PM (pm_ra asecperrad p (dyr p jd1)) (pm_dec asecperrad p (dyr p jd1)) (dra p) (ddec p) jd1 (pm_dist (365.25 * 86400) 3.08568025e18 p (dyr p jd1)) (rv p) in
  pm_coord asecperrad (365.25 * 86400) 3.08568025e18 p1 jd2 (dyr p1 jd2) = pm_coord asecperrad (365.25 * 86400) 3.08568025e18 p jd2 (dyr p jd2).
Proof.
  intros A p j1 j2 p1. unfold pm_coord, p1, pm_dist, pm_ra, pm_dec, dyr, deg. cbn [ra0 dec0 dra ddec jd0 distpc0 rv].
  assert (E : match match distpc0 p with None => None | Some d => Some (d + (j1 - jd0 p) / 365.25 * rv p * (365.25 * 86400) * 100000 / 3.08568025e18) end with None => None | Some d => Some (d + (j2 - j1) / 365.25 * rv p * (365.25 * 86400) * 100000 / 3.08568025e18) end = match distpc0 p with None => None | Some d => Some (d + (j2 - jd0 p) / 365.25 * rv p * (365.25 * 86400) * 100000 / 3.08568025e18) end).
  { destruct (distpc0 p) as [d|]; [|reflexivity]. f_equal. unfold Rdiv. ring. }
  rewrite E. do 2 f_equal. f_equal. f_equal; unfold Rdiv; ring.
Qed.
(** the object Barnard-like, after some use: hypotheses of C70 and C71 are met *)
Definition ex_pm : pm := PM 269 4 (Ropp 1) 10 2451545 (Some 2) (-110).
Definition ex_cal (c : R) : @res R := if Rlt_dec c 0 then Raise ValueError else Ok c.
Definition ex_coord : R -> R -> @res (R * R * option R * R) := pm_coord (180 * 3600 / PI) (365.25 * 86400) 3.08568025e18 ex_pm.
Example C70_nonvacuous : exists s0, newEph ex_cal 2455000 (dyr ex_pm) (Some (Some (DJd 2400000), None)) = Ok s0 /\
  let s := urun ex_cal 2455000 (dyr ex_pm) ex_coord (fun (y : unit) c => Ok c) s0 [USet (DJd 2451545.5); UCall (WMany [DJd 1; DNow]) None; USet (DCal (-1))] in ejd s = 2451545.5 /\ fst (vrange s) = Some 2400000.
Proof. eexists. split; [reflexivity|]. cbv zeta. cbn -[Rlt_dec Rplus Rmult IZR dyr ex_coord Rdiv]. unfold EphModel.setJd, to_jd, ex_cal. destruct (Rlt_dec (-1) 0); [|lra]. split; reflexivity. Qed.
