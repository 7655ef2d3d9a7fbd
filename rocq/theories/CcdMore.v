(** * CcdMore: deferred edits, and what goes wrong (C81); scalings and their inverses (C82) *)
From Coq Require Import Reals ZArith List Bool Arith Lia Lra.
From Verif Require Import PyBase AlgModel CcdModel CcdRegion CcdEdit.
Import ListNotations.
Open Scope R_scope.

(** ** Shapes: unless a stage replaces the data or the 'log' scaling with a base is asked for, the data attribute
    has the shape of the selected region, after every history. *)
Definition plain (o : op) : Prop := match o with Stage _ => False | SetScaling (SLogBase _) => False | _ => True end.
Inductive plain_history (m0 : image) : image -> Prop :=
| PStart : plain_history m0 m0
| PStep m o m' out : plain_history m0 m -> plain o -> step m o = (m', out) -> out <> NotANumber -> plain_history m0 m'.
Definition shaped (m : image) : Prop := same_shape (data m) (extract m (region m)) /\ fwd (scal m) <> None /\ (view m = None \/ view m = Some (region m)).
Lemma extract_shape m m' : same_shape (store m) (store m') -> forall r, same_shape (extract m r) (extract m' r).
Proof. intros (A & B) [[[[xl xu] yl] yu]|]; cbn [extract sub]; unfold same_shape; cbn [nx ny]; rewrite ?A, ?B; auto. Qed.
Lemma ss_trans a b c : same_shape a b -> same_shape b c -> same_shape a c.
Proof. unfold same_shape. intros (-> & ->) (-> & ->). auto. Qed.
Lemma ss_sym a b : same_shape a b -> same_shape b a.
Proof. unfold same_shape. intros (-> & ->). auto. Qed.
(** keeping shape, scaling, region and view *)
Definition keeps (m m' : image) : Prop :=
  same_shape (store m) (store m') /\ scal m' = scal m /\ region m' = region m /\ view m' = view m /\ same_shape (own m) (own m').
Lemma keeps_shaped m m' : keeps m m' -> shaped m -> shaped m'.
Proof.
  intros (A & B & C & D & E) (S & F & V). unfold shaped. rewrite B, C, D. split; [|auto].
  pose proof (extract_shape m m' A) as X. unfold data in *. rewrite D. destruct (view m) as [r|].
  - apply (ss_trans _ (extract m r)); [apply ss_sym, X|]. apply (ss_trans _ (extract m (region m))); [exact S|apply X].
  - apply (ss_trans _ (own m)); [apply ss_sym, E|]. apply (ss_trans _ (extract m (region m))); [exact S|apply X].
Qed.
Lemma keeps_refl m : keeps m m. Proof. repeat split. Qed.
Lemma keeps_trans a b c : keeps a b -> keeps b c -> keeps a c.
Proof. intros (A & B & C & D & E) (A' & B' & C' & D' & E'). repeat split; try congruence; try (apply (ss_trans _ _ _ A A')); apply (ss_trans _ _ _ E E'). Qed.
Lemma edit_keeps m f : shaped m -> keeps m (edit m f).
Proof.
  intros (S & _ & V). unfold edit. destruct (view m) as [r|] eqn:E.
  - destruct r as [[[[? ?] ?] ?]|]; repeat split; cbn; auto.
  - repeat split; cbn; auto; unfold data in *; rewrite E in *; auto.
Qed.
Lemma apply_keeps m : keeps m (fst (applyChanges m)).
Proof.
  unfold keeps. destruct (apply_fields m) as (-> & -> & ->). pose proof (apply_framed m) as ((A & B) & _).
  repeat split; auto; unfold applyChanges; destruct (is_linear (scal m)).
  1,3: cbn [fstat with_lstat with_changed]; destruct (fstat m); reflexivity.
  all: destruct (inv (scal m)); [|reflexivity]; cbv zeta; destruct (_ && _); [|reflexivity];
    cbn [fstat with_lstat with_changed apply_array with_store]; destruct (fstat m); reflexivity.
Qed.
Lemma full_keeps m : keeps m (fst (fullStats m)).
Proof. unfold keeps. destruct (full_view m) as (-> & -> & ->). rewrite full_store, full_scal. repeat split. Qed.
Lemma changed_keeps m b : keeps m (with_changed m b). Proof. repeat split. Qed.
Lemma repl_keeps m act c : shaped m -> keeps m (fst (repl_inds m act c)).
Proof.
  intros S. assert (G : forall m', keeps m m' -> forall v,
    keeps m (fst (match v with
      | Some v => (with_changed (edit m' (fun _ _ x => if c x then v else x)) true, Counts (column_counts (data m) c))
      | None => if existsb c (ravel (data m)) then (m', NotANumber) else (with_changed m' true, Counts (column_counts (data m) c)) end))).
  { intros m' C' v. destruct v as [v|]; cbn [fst].
    - apply (keeps_trans _ (edit m' (fun _ _ x => if c x then v else x))); [|apply changed_keeps].
      apply (keeps_trans _ m'); [exact C'|]. apply edit_keeps. now apply (keeps_shaped m).
    - destruct (existsb c _); [exact C'|]. apply (keeps_trans _ m'); [exact C'|apply changed_keeps]. }
  pose proof (full_keeps m) as F. pose proof (G m (keeps_refl m)) as G0.
  unfold repl_inds. cbv zeta. destruct act; try (apply G0); try (apply keeps_refl); try (apply (G0 (Some v)));
    destruct (fullStats m) as [m' [s|e]]; cbn [fst] in *; try exact F; [apply (G m' F (Some (s_median s)))|apply (G m' F (Some (s_mean s)))].
Qed.
Lemma activate_shaped m q : shaped m -> shaped (fst (activateRange m q)).
Proof.
  intros S. assert (S' : shaped (pre m)). { unfold pre. destruct (_ && _); [|exact S]. apply (keeps_shaped m); [apply apply_keeps|exact S]. }
  pose proof S' as (A & B & C).
  assert (G : forall r, shaped (fst (match fwd (scal (pre m)) with
      | None => (with_active (pre m) r (view (pre m)) (own (pre m)), Exc AttributeError)
      | Some f => (with_active (pre m) r (if shares (scal (pre m)) then Some r else None) (amap f (extract (pre m) r)), Done) end))).
  { intros r. destruct (fwd (scal (pre m))) eqn:F; [|congruence]. cbn [fst]. unfold shaped. cbn [with_active scal region view].
    rewrite F. split; [|split; [discriminate|destruct (shares (scal (pre m))); auto]].
    unfold data. cbn [with_active view own]. destruct (shares (scal (pre m))); repeat split. }
  unfold activateRange. fold (pre m). cbv zeta. destruct q; try (apply (G None)); try (apply G); try exact S'.
  destruct (_ || _); [exact S'|apply G].
Qed.
Lemma set_shaped m q : shaped m -> (forall b, q <> SLogBase b) -> shaped (fst (setScaling m q)).
Proof.
  intros S N. unfold setScaling. pose proof (make_store m q) as H. cbv zeta in H.
  assert (MK : forall m' s, make_scaling m q = (m', inl (Some s)) -> fwd s <> None).
  { intros m' s E. destruct q; cbn [make_scaling] in E; try (injection E as <- <-; discriminate); try discriminate.
    - destruct (is_linear _); [discriminate|]. injection E as <- <-. discriminate.
    - destruct (linearStats m) as [? [?|?]]; [injection E as <- <-; discriminate|discriminate].
    - exfalso. now apply (N b).
    - destruct (zpt m), (pixscale m) as [[? ?]|]; try discriminate. injection E as <- <-. discriminate. }
  destruct (make_scaling m q) as [m' [[s|]|e]]; cbn [fst] in *; destruct H as (H1 & H2 & H3 & H4 & H5 & H6 & H7 & H8).
  - specialize (MK m' s eq_refl).
    assert (S1 : shaped (with_scal m' s)).
    { destruct S as (S1 & S2 & S3). unfold shaped. cbn [with_scal scal region view]. rewrite H2, H3. split; [|auto].
      unfold data in *. cbn [with_scal view own]. rewrite H2, H7. unfold extract in *. cbn [with_scal store]. rewrite H1. exact S1. }
    now apply activate_shaped.
  - apply (keeps_shaped m); [|exact S]. unfold keeps. rewrite H1, H2, H3, H6, H7. repeat split.
  - apply (keeps_shaped m); [|exact S]. unfold keeps. rewrite H1, H2, H3, H6, H7. repeat split.
Qed.
Lemma step_shaped m o : shaped m -> plain o -> shaped (fst (step m o)).
Proof.
  intros S P. pose proof (full_keeps m) as F.
  assert (FS : shaped (fst (fullStats m))) by now apply (keeps_shaped m).
  assert (RP : forall m1 a c, shaped m1 -> shaped (fst (repl_inds m1 a c))) by (intros m1 a c S1; apply (keeps_shaped m1); [now apply repl_keeps|exact S1]).
  assert (ED : forall m1 f b, shaped m1 -> shaped (with_changed (edit m1 f) b)).
  { intros m1 f b S1. apply (keeps_shaped m1); [|exact S1]. apply (keeps_trans _ (edit m1 f)); [now apply edit_keeps|apply changed_keeps]. }
  destruct o; cbn [step plain] in *.
  - now apply activate_shaped.
  - apply set_shaped; [exact S|]. intros b ->. exact P.
  - apply (keeps_shaped m); [apply apply_keeps|exact S].
  - apply (keeps_shaped m); [now apply edit_keeps|exact S].
  - unfold clipOutliers. destruct l; destruct p; auto; destruct (amin _); auto; destruct (amax _); auto.
  - unfold clipSigma. destruct (fwd (scal m)); [|exact S]. destruct (fullStats m) as [m' [st|e]]; cbn [fst] in *; auto.
  - unfold clipThreshold. destruct c; auto.
  - unfold offsetData. destruct o; cbv zeta; try (destruct (amin _); [now apply ED|exact S]); try (now apply ED);
    destruct (fullStats m) as [m' [st|e]]; cbn [fst] in *; try exact FS; now apply ED.
  - contradiction.
  - unfold told. destruct (fullStats m) as [m' [st|e]]; exact FS.
  - unfold told. assert (L : keeps m (fst (linearStats m))). { unfold keeps. destruct (linear_store m) as (-> & -> & -> & _ & _ & -> & -> & _). repeat split. }
    apply (keeps_shaped m _) in L; [|exact S]. destruct (linearStats m) as [m' [st|e]]; exact L.
  - apply (keeps_shaped m); [|exact S]. repeat split.
  - apply (keeps_shaped m); [|exact S]. repeat split.
Qed.
Lemma create_shaped a r q m : (forall b, q <> Some (SLogBase b)) -> create a r q = (m, Done) -> shaped m.
Proof.
  intros N E. destruct q as [q|].
  - set (mi := Image a None (Some None) a Linear false CEmpty None false None None).
    assert (SI : shaped mi) by (split; [repeat split|split; [discriminate|right; reflexivity]]).
    unfold create in E. fold mi in E. pose proof (make_store mi q) as H. cbv zeta in H.
    assert (MK : forall m' s, make_scaling mi q = (m', inl (Some s)) -> fwd s <> None).
    { intros m' s E'. destruct q; cbn [make_scaling] in E'; try (injection E' as <- <-; discriminate); try discriminate.
      - destruct (linearStats mi) as [? [?|?]]; [injection E' as <- <-; discriminate|discriminate].
      - exfalso. now apply (N b). }
    destruct (make_scaling mi q) as [m' [[s|]|e]]; cbn [fst] in *; destruct H as (H1 & H2 & H3 & H4 & H5 & H6 & H7 & H8); [|injection E as <-|discriminate].
    + specialize (MK m' s eq_refl). replace m with (fst (activateRange (with_scal m' s) r)) by now rewrite E. apply activate_shaped.
      unfold shaped. cbn [with_scal scal region view]. rewrite H2, H3. split; [|auto].
      unfold data. cbn [with_scal view own]. rewrite H2. unfold extract. cbn [with_scal store]. rewrite H1. repeat split.
    + apply (keeps_shaped mi); [|exact SI]. unfold keeps. rewrite H1, H2, H3, H6, H7. repeat split.
  - injection E as <-. split; [repeat split|split; [discriminate|right; reflexivity]].
Qed.
Theorem C81_shape a r q m0 m : (forall b, q <> Some (SLogBase b)) -> create a r q = (m0, Done) -> plain_history m0 m ->
  nx (store m) = nx a /\ ny (store m) = ny a /\
  match region m with
  | None => nx (data m) = nx a /\ ny (data m) = ny a
  | Some (xl,xu,yl,yu) => fits (nx a) (ny a) xl xu yl yu -> Z.of_nat (nx (data m)) = (xu - xl)%Z /\ Z.of_nat (ny (data m)) = (yu - yl)%Z
  end.
Proof.
  intros N E H.
  assert (ST : store m0 = a).
  { destruct q as [q|]; unfold create in E; [|now injection E as <-].
    set (mi := Image a None (Some None) a Linear false CEmpty None false None None) in E.
    pose proof (make_store mi q) as M. cbv zeta in M. destruct (make_scaling mi q) as [m' [[s|]|e]]; cbn [fst] in M;
      destruct M as (H1 & H2 & H3 & H4 & H5 & H6 & H7 & H8); [|injection E as <-; exact H1|discriminate].
    replace m0 with (fst (activateRange (with_scal m' s) r)) by now rewrite E. rewrite activate_store. unfold pre.
    cbn [with_scal auto]. rewrite H4. exact H1. }
  assert (G : shaped m /\ same_shape (store m0) (store m)).
  { induction H as [|m o m' out H (IH1 & IH2) P S NN]; [split; [now apply (create_shaped a r q)|repeat split]|].
    replace m' with (fst (step m o)) by now rewrite S. split; [now apply step_shaped|].
    apply (ss_trans _ (store m)); [exact IH2|]. apply step_framed. }
  destruct G as ((G1 & _) & (G2 & G3)). rewrite <- ST. split; [congruence|]. split; [congruence|].
  unfold same_shape in G1. destruct (region m) as [[[[xl xu] yl] yu]|].
  - intros F. destruct (sub_shows (store m0) xl xu yl yu F) as (A & B & _). cbn [extract] in G1.
    destruct G1 as (C & D). rewrite C, D, <- A, <- B. cbn [sub nx ny]. rewrite <- G2, <- G3. auto.
  - cbn [extract] in G1. rewrite (proj1 G1), (proj2 G1). auto.
Qed.

(** ** Deferred application *)
(** With applyChangesOnActivate set, edits made by the clipping and offset operations are written to the image when
    another region is selected. *)
Theorem C81_saved m s g xl xu yl yu q : scal m = s -> In (s, g) [(Exp, ln); (Asinh, sinh)] \/ (exists o, s = SB o /\ g = fun y => Rpower 10 ((y - o) / - (5/2))) ->
  auto m = true -> changed m = true -> region m = Some (xl,xu,yl,yu) -> fits (nx (store m)) (ny (store m)) xl xu yl yu ->
  Z.of_nat (nx (data m)) = (xu - xl)%Z -> Z.of_nat (ny (data m)) = (yu - yl)%Z ->
  forall i j, in_box xl xu yl yu i j ->
    px (store (fst (step m (Activate q)))) i j = g (px (data m) (i - Z.to_nat xl) (j - Z.to_nat yl)).
Proof.
  intros S G A C R F X Y i j I. cbn [step]. rewrite activate_store. unfold pre. rewrite A, C. cbn [andb].
  assert (G' : In (s, g) [(Power, fun x => x); (Exp, ln); (Asinh, sinh)] \/ (exists o, s = SB o /\ g = fun y => Rpower 10 ((y - o) / - (5/2)))).
  { destruct G as [G|G]; [left; right; exact G|right; exact G]. }
  exact (proj1 (C81_apply m s g xl xu yl yu S G' R F X Y i j) I).
Qed.
(** Setting another scaling meanwhile converts the pending data with the inverse of the new scaling instead of the
    old one, and so stores wrong numbers: an image of zeros, shown in asinh, raised by 1, then shown in exp,
    becomes an image of zeros again (ln 1) instead of sinh 1. *)
Definition zeros : arr := Arr 1 1 (fun _ _ => 0).
Theorem C81_rescale_refuted : exists m1 m2 m3 m4,
  create zeros Whole (Some SAsinh) = (m1, Done) /\ step m1 (SetAuto true) = (m2, Done) /\
  step m2 (Offset (OValue (Ropp 1))) = (m3, Done) /\ px (data m3) 0 0 = 1 /\
  step m3 (SetScaling SExp) = (m4, Done) /\ px (store m4) 0 0 = 0 /\ px (store m4) 0 0 <> sinh 1.
Proof.
  set (one := Arr 1 1 (fun _ _ => arcsinh 0 - - (1))).
  exists (Image zeros None None (amap arcsinh zeros) Asinh false CNone None false None None),
    (Image zeros None None (amap arcsinh zeros) Asinh false CNone None true None None),
    (Image zeros None None one Asinh true CNone None true None None),
    (Image (Arr 1 1 (fun _ _ => ln (arcsinh 0 - - (1)))) None None (Arr 1 1 (fun _ _ => exp (ln (arcsinh 0 - - (1))))) Exp false CNone None true None None).
  split; [reflexivity|]. split; [reflexivity|]. split; [reflexivity|]. split.
  - change (arcsinh 0 - - (1) = 1). rewrite arcsinh_0. lra.
  - assert (Z0 : ln (arcsinh 0 - - (1)) = 0) by (rewrite arcsinh_0; replace (0 - - (1)) with 1 by lra; apply ln_1).
    split; [reflexivity|]. change (ln (arcsinh 0 - - (1)) = 0 /\ ln (arcsinh 0 - - (1)) <> sinh 1).
    rewrite Z0. split; [reflexivity|]. intros H.
    pose proof (sinh_lt 0 1 ltac:(lra)). rewrite sinh_0 in H0. lra.
Qed.
(** ** applyChanges ends with an exception for ever once a scaling has been set *)
Lemma fstat_edit m f : fstat (edit m f) = fstat m. Proof. apply edit_fields. Qed.
Lemma fstat_apply m : fstat m = CNone -> fstat (fst (applyChanges m)) = CNone.
Proof.
  intros E. unfold applyChanges. destruct (is_linear (scal m)).
  - cbn [fstat with_lstat with_changed]. rewrite E. exact E.
  - destruct (inv (scal m)); [|exact E]. cbv zeta. destruct (_ && _); [|exact E].
    cbn [fstat with_lstat with_changed apply_array with_store]. rewrite E. exact E.
Qed.
Lemma fstat_full m : fstat m = CNone -> fst (fullStats m) = m /\ exists e, snd (fullStats m) = inr e.
Proof. intros E. unfold fullStats. rewrite E. destruct (fwd (scal m)); split; try reflexivity; eexists; reflexivity. Qed.
Lemma fstat_activate m q : fstat m = CNone -> fstat (fst (activateRange m q)) = CNone.
Proof.
  intros E. assert (P : fstat (pre m) = CNone) by (unfold pre; destruct (_ && _); [now apply fstat_apply|exact E]).
  unfold activateRange. fold (pre m). cbv zeta. destruct q; try exact P; try (destruct (_ || _)); try exact P; destruct (fwd (scal (pre m))); exact P.
Qed.
Lemma fstat_repl m act c : fstat m = CNone -> fstat (fst (repl_inds m act c)) = CNone.
Proof.
  intros E. destruct (fstat_full m E) as (F1 & e & F2). unfold repl_inds. cbv zeta.
  destruct act; try (destruct (fullStats m) as [m' [s|e']]; cbn [fst snd] in *; [discriminate|now subst]); try exact E;
    try (match goal with |- context[match ?x with Some _ => _ | None => _ end] => destruct x end; cbn [fst]; [cbn [with_changed fstat]; now rewrite fstat_edit|destruct (existsb c _); exact E]).
  cbn [fst with_changed fstat]. now rewrite fstat_edit.
Qed.
Lemma fstat_step m o : fstat m = CNone -> fstat (fst (step m o)) = CNone.
Proof.
  intros E. destruct (fstat_full m E) as (F1 & e & F2). destruct o; cbn [step].
  - now apply fstat_activate.
  - unfold setScaling. pose proof (make_store m q) as H. cbv zeta in H. destruct (make_scaling m q) as [m' [[s|]|e']]; cbn [fst] in *; destruct H as (_ & _ & _ & _ & _ & _ & _ & H8); [|congruence|congruence].
    now apply fstat_activate.
  - now apply fstat_apply.
  - cbn [fst]; now rewrite fstat_edit.
  - unfold clipOutliers. destruct l; destruct p; try (now apply fstat_repl); destruct (amin _); try exact E; destruct (amax _); try exact E; now apply fstat_repl.
  - unfold clipSigma. destruct (fwd (scal m)); [|exact E]. destruct (fullStats m) as [m' [st|e']]; cbn [fst snd] in *; [discriminate|now subst].
  - unfold clipThreshold. destruct c; try (now apply fstat_repl). exact E.
  - unfold offsetData. destruct o; cbv zeta; try (destruct (amin _); [cbn [fst with_changed fstat]; now rewrite fstat_edit|exact E]); try (cbn [fst with_changed fstat]; now rewrite fstat_edit);
      (destruct (fullStats m) as [m' [st|e']]; cbn [fst snd] in *; [discriminate|now subst]).
  - now apply fstat_apply.
  - unfold told. destruct (fullStats m) as [m' [st|e']]; cbn [fst snd] in *; now subst.
  - unfold told. pose proof (linear_store m) as (_ & _ & _ & _ & _ & _ & _ & L). destruct (linearStats m) as [m' [st|e']]; cbn [fst] in *; congruence.
  - exact E.
  - exact E.
Qed.
Lemma fstat_history m rs m' : history m rs m' -> fstat m = CNone -> fstat m' = CNone.
Proof. intros H E. induction H as [|rs m1 o m2 out H IH S N]; [exact E|]. replace m2 with (fst (step m1 o)) by now rewrite S. now apply fstat_step. Qed.
(** After setScaling has installed a scaling (even the linear one), applyChanges never again returns normally and
    the full-image statistics can never be computed, whatever is done with the image. *)
Theorem C81_apply_refuted m q m1 rs m2 : q <> SNone -> setScaling m q = (m1, Done) -> history m1 rs m2 ->
  (exists e, snd (applyChanges m2) = Exc e) /\ (exists e, snd (fullStats m2) = inr e).
Proof.
  intros N S H.
  assert (E : fstat m1 = CNone).
  { unfold setScaling in S. destruct (make_scaling m q) as [m' [[s|]|e']] eqn:M.
    - replace m1 with (fst (activateRange (with_scal m' s) (again (region (with_scal m' s))))) by now rewrite S. now apply fstat_activate.
    - exfalso. destruct q; cbn [make_scaling] in M; try discriminate; try congruence.
      + destruct (linearStats m) as [? [?|?]]; discriminate.
      + destruct (zpt m), (pixscale m) as [[? ?]|]; discriminate.
    - discriminate. }
  apply (fstat_history _ _ _ H) in E. split; [|now apply fstat_full].
  unfold applyChanges. destruct (is_linear (scal m2)).
  - cbn [fstat with_lstat with_changed]. rewrite E. eexists; reflexivity.
  - destruct (inv (scal m2)); [|eexists; reflexivity]. cbv zeta. destruct (_ && _); [|eexists; reflexivity].
    cbn [fstat with_lstat with_changed apply_array with_store]. rewrite E. eexists; reflexivity.
Qed.
(** A calibration stage run on an image with linear scaling never changes the image itself: the result is only in
    the data attribute, and the next selection shows the old pixels. *)
Theorem C81_stage_refuted m f q : scal m = Linear -> auto m = false ->
  store (fst (step m (Stage f))) = store m /\ data (fst (step m (Stage f))) = f (data m) /\
  forall m', step (fst (step m (Stage f))) (Activate q) = (m', Done) -> store m' = store m /\ data m' = extract m (region m').
Proof.
  destruct m as [st rg vw ow sc ch fs ls au zp pxs]. cbn [scal auto]. intros -> ->. cbn [step].
  set (d := data _). set (m0 := Image st rg vw ow _ _ _ _ _ _ _).
  assert (E : exists ls' fs', fst (applyChanges (with_active m0 (region m0) None (f d))) = Image st rg None (f d) Linear false fs' ls' false zp pxs)
    by (unfold applyChanges, m0; destruct fs; eexists _, _; reflexivity).
  destruct E as (ls' & fs' & E). rewrite E. split; [reflexivity|]. split; [reflexivity|].
  intros m' S. unfold activateRange in S. cbn [auto changed andb] in S. cbv zeta in S. cbn [store scal fwd shares] in S.
  destruct q; try (destruct (_ || _) in S); try discriminate S; injection S as <-; split; reflexivity.
Qed.
(** A refused scaling is nevertheless installed: asking for a base-b logarithm raises, the data still are the raw
    pixels, and applyChanges then overwrites the image by powers of b. *)
Theorem C81_log_base_refuted b : exists m1 m2 m3, create zeros Whole None = (m1, Done) /\
  step m1 (SetScaling (SLogBase b)) = (m2, Exc AttributeError) /\ data m2 = zeros /\
  m3 = fst (step m2 Apply) /\ px (store m3) 0 0 = 1.
Proof.
  do 3 eexists. split; [reflexivity|]. split; [reflexivity|]. split; [reflexivity|]. split; [reflexivity|].
  cbn -[Rpower]. unfold Rpower. rewrite Rmult_0_l. apply exp_0.
Qed.
Example C81_case : exists m0 m, create (Arr 4 4 (fun i j => INR (i + j))) (Box (1,3,1,3)%Z) (Some SExp) = (m0, Done) /\
  history m0 [Some (1,3,1,3)%Z] m /\ copying (scal m) /\ reach m /\ auto m && changed m = false /\ ~ covers 4 4 (Some (1,3,1,3)%Z) 3 3 /\
  px (data m) 0 1 = 7 /\ plain_history m0 m /\ scal m0 = Exp /\ region m = Some (1,3,1,3)%Z /\ nx (data m) = 2%nat.
Proof.
  set (m0 := fst (create (Arr 4 4 (fun i j => INR (i + j))) (Box (1,3,1,3)%Z) (Some SExp))).
  set (m := fst (step m0 (Poke 0 1 7))). exists m0, m. split; [reflexivity|].
  assert (H : history m0 [Some (1,3,1,3)%Z] m).
  { change [Some (1,3,1,3)%Z] with (if writes m0 (Poke 0 1 7) then in_use m0 ++ [] else []).
    apply (HStep m0 [] m0 (Poke 0 1 7) m Done); [apply HStart|reflexivity|discriminate]. }
  split; [exact H|]. split; [exact I|]. split; [exists (Arr 4 4 (fun i j => INR (i + j))), (Box (1,3,1,3)%Z), (Some SExp), m0, [Some (1,3,1,3)%Z]; split; [reflexivity|exact H]|].
  split; [reflexivity|]. split; [unfold covers, edge; cbn; lia|]. split; [reflexivity|]. split; [|repeat split].
  apply (PStep m0 m0 (Poke 0 1 7) m Done); [apply PStart|exact I|reflexivity|discriminate].
Qed.
