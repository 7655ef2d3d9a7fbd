(** * CcdEdit: what edits do to the image, for every history (C81) *)
From Coq Require Import Reals ZArith List Bool Arith Lia Lra.
From Verif Require Import PyBase AlgModel CcdModel CcdRegion.
Import ListNotations.
Open Scope R_scope.

(** ** Specification *)
(** Python slice edges: negative ones count from the end *)
Definition edge (n : nat) (z : Z) : Z := if (z <? 0)%Z then (z + Z.of_nat n)%Z else z.
Definition covers (a b : nat) (r : option box) (i j : nat) : Prop :=
  match r with
  | None => True
  | Some (xl,xu,yl,yu) => (edge a xl <= Z.of_nat i < edge a xu)%Z /\ (edge b yl <= Z.of_nat j < edge b yu)%Z
  end.
(** the operations that may write pixels: edits, applyChanges, stages, and selections that first apply what is pending *)
Definition writes (m : image) (o : op) : bool :=
  match o with
  | Poke _ _ _ | ClipOutliers _ _ _ | ClipSigma _ _ _ | ClipThreshold _ _ _ | Offset _ | Stage _ | Apply => true
  | Activate _ | SetScaling _ => auto m && changed m
  | FullStats | LinearStats | SetAuto _ | Calibrate _ _ => false
  end.
(** regions in use: the selected one and the one the data attribute is a view of *)
Definition in_use (m : image) : list (option box) := region m :: match view m with Some r => [r] | None => [] end.
(** a history, with the regions in use whenever something may be written *)
Inductive history (m0 : image) : list (option box) -> image -> Prop :=
| HStart : history m0 [] m0
| HStep rs m o m' out : history m0 rs m -> step m o = (m', out) -> out <> NotANumber ->
    history m0 (if writes m o then in_use m ++ rs else rs) m'.
(** images a program can hold *)
Definition reach (m : image) : Prop := exists a r q m0 rs, create a r q = (m0, Done) /\ history m0 rs m.

(** ** Writes stay in the region *)
Lemma put_frame im b d i j : pixel (nx im) (ny im) i j -> ~ covers (nx im) (ny im) (Some b) i j -> px (put im b d) i j = px im i j.
Proof.
  destruct b as [[[xl xu] yl] yu]. unfold pixel, covers, put, low, len. intros (I & J) H. cbn [px].
  assert (B : forall n z k, (k < n)%nat -> ((bound n z <= k)%nat <-> (edge n z <= Z.of_nat k)%Z)).
  { intros n z k K. unfold bound, edge. destruct (Z.ltb_spec z 0); lia. }
  destruct (within (bound (nx im) xl) (bound (nx im) xu - bound (nx im) xl) i) eqn:E1; [|reflexivity].
  destruct (within (bound (ny im) yl) (bound (ny im) yu - bound (ny im) yl) j) eqn:E2; [|reflexivity].
  exfalso. apply within_spec in E1, E2. apply H.
  pose proof (B (nx im) xl i I). pose proof (B (nx im) xu i I). pose proof (B (ny im) yl j J). pose proof (B (ny im) yu j J). lia.
Qed.
Definition same_shape (a b : arr) : Prop := nx a = nx b /\ ny a = ny b.
Definition frame (im im' : arr) (r : option box) : Prop :=
  same_shape im im' /\ forall i j, pixel (nx im) (ny im) i j -> ~ covers (nx im) (ny im) r i j -> px im' i j = px im i j.
Lemma frame_refl im r : frame im im r. Proof. split; [split|]; auto. Qed.
Lemma apply_array_frame m r d : frame (store m) (store (apply_array m r d)) r.
Proof.
  destruct r as [b|]; cbn [apply_array with_store store].
  - split; [destruct b as [[[? ?] ?] ?]; split; reflexivity|]. intros i j P H. now apply put_frame.
  - split; [split; reflexivity|]. intros i j P H. exfalso. now apply H.
Qed.
(** the store after an operation differs from the store before only in a region in use *)
Definition framed (m m' : image) : Prop := same_shape (store m) (store m') /\
  forall i j, pixel (nx (store m)) (ny (store m)) i j -> (forall r, In r (in_use m) -> ~ covers (nx (store m)) (ny (store m)) r i j) ->
  px (store m') i j = px (store m) i j.
Lemma framed_same m m' : store m' = store m -> framed m m'.
Proof. intros E. split; [rewrite E; split; reflexivity|]. intros. now rewrite E. Qed.
Lemma framed_frame m m' r : In r (in_use m) -> frame (store m) (store m') r -> framed m m'.
Proof. intros I (S & F). split; [exact S|]. intros i j P H. apply F; auto. Qed.
Lemma edit_framed m f : framed m (edit m f).
Proof.
  unfold edit. destruct (view m) as [r|] eqn:V.
  - apply (framed_frame _ _ r); [unfold in_use; rewrite V; right; now left|apply apply_array_frame].
  - now apply framed_same.
Qed.
Lemma apply_store m : store (fst (applyChanges m)) = store m \/ exists d, store (fst (applyChanges m)) = store (apply_array m (region m) d).
Proof.
  unfold applyChanges. destruct (is_linear (scal m)).
  - left. cbn [fstat with_lstat with_changed]. destruct (fstat m); reflexivity.
  - destruct (inv (scal m)) as [g|]; [|left; reflexivity]. cbv zeta.
    destruct (_ && _); [|left; reflexivity]. right. exists (amap g (data m)).
    destruct (fstat m) eqn:E; cbn [fstat with_lstat with_changed apply_array with_store] in *; rewrite E; reflexivity.
Qed.
Lemma apply_framed m : framed m (fst (applyChanges m)).
Proof.
  destruct (apply_store m) as [E | (d & E)]; [now apply framed_same|].
  apply (framed_frame _ _ (region m)); [now left|]. rewrite E. apply apply_array_frame.
Qed.
Lemma activate_store m q : store (fst (activateRange m q)) = store (pre m).
Proof.
  unfold activateRange. fold (pre m). cbv zeta. destruct q; try reflexivity; try (destruct (_ || _)); try reflexivity;
    destruct (fwd (scal (pre m))); reflexivity.
Qed.
Lemma pre_framed m : framed m (pre m).
Proof. unfold pre. destruct (_ && _); [apply apply_framed|now apply framed_same]. Qed.
Lemma full_store m : store (fst (fullStats m)) = store m.
Proof. unfold fullStats. destruct (fstat m), (fwd (scal m)); try reflexivity; destruct (stats_of _); reflexivity. Qed.
Lemma full_view m : view (fst (fullStats m)) = view m /\ region (fst (fullStats m)) = region m /\ own (fst (fullStats m)) = own m.
Proof. unfold fullStats. destruct (fstat m), (fwd (scal m)); try (repeat split; reflexivity); destruct (stats_of _); repeat split; reflexivity. Qed.
Lemma linear_store m : store (fst (linearStats m)) = store m /\ view (fst (linearStats m)) = view m /\ region (fst (linearStats m)) = region m /\ auto (fst (linearStats m)) = auto m /\ changed (fst (linearStats m)) = changed m /\ scal (fst (linearStats m)) = scal m /\ own (fst (linearStats m)) = own m /\ fstat (fst (linearStats m)) = fstat m.
Proof. unfold linearStats. destruct (lstat m); [repeat split; reflexivity|]. destruct (stats_of _); repeat split; reflexivity. Qed.
Lemma make_store m q : let m' := fst (make_scaling m q) in
  store m' = store m /\ view m' = view m /\ region m' = region m /\ auto m' = auto m /\ changed m' = changed m /\ scal m' = scal m /\ own m' = own m /\ fstat m' = fstat m.
Proof.
  cbv zeta. destruct q; cbn [make_scaling fst]; try (repeat split; reflexivity).
  pose proof (linear_store m) as H. destruct (linearStats m) as [m' [s|e]]; exact H.
Qed.
Lemma set_framed m q : framed m (fst (setScaling m q)) /\ (auto m && changed m = false -> store (fst (setScaling m q)) = store m).
Proof.
  unfold setScaling. pose proof (make_store m q) as H. cbv zeta in H. destruct (make_scaling m q) as [m' [[s|]|e]]; cbn [fst] in *.
  - destruct H as (H1 & H2 & H3 & H4 & H5 & H6 & H7 & H8). split.
    + pose proof (pre_framed (with_scal m' s)) as (S & F). split; rewrite activate_store.
      * cbn [with_scal store] in S. rewrite H1 in S. exact S.
      * intros i j P G. specialize (F i j). cbn [with_scal store in_use region view] in F. rewrite H1 in F. apply F; [exact P|].
        unfold in_use in *. cbn [with_scal region view]. rewrite H2, H3. exact G.
    + intros E. rewrite activate_store. unfold pre. cbn [with_scal auto changed]. rewrite H4, H5, E. exact H1.
  - destruct H as (H1 & _). split; [now apply framed_same|auto].
  - destruct H as (H1 & _). split; [now apply framed_same|auto].
Qed.
Lemma repl_framed m act c : framed m (fst (repl_inds m act c)).
Proof.
  assert (G : forall m', store m' = store m -> in_use m' = in_use m -> forall v,
    framed m (fst (match v with
      | Some v => (with_changed (edit m' (fun _ _ x => if c x then v else x)) true, Counts (column_counts (data m) c))
      | None => if existsb c (ravel (data m)) then (m', NotANumber) else (with_changed m' true, Counts (column_counts (data m) c)) end))).
  { intros m' E U v. destruct v as [v|]; cbn [fst].
    - pose proof (edit_framed m' (fun _ _ x => if c x then v else x)) as F. unfold framed in *.
      change (store (with_changed ?x true)) with (store x). rewrite <- E, <- U. exact F.
    - destruct (existsb c _); now apply framed_same. }
  pose proof (G m eq_refl eq_refl) as G0.
  unfold repl_inds. cbv zeta. destruct act; try (apply G0); try (now apply framed_same); try (apply (G0 (Some v))).
  - pose proof (full_store m) as E. pose proof (full_view m) as (V & W & _). destruct (fullStats m) as [m' [s|e]]; cbn [fst] in *.
    + apply (G m' E) with (v := Some (s_median s)). unfold in_use. now rewrite V, W.
    + now apply framed_same.
  - pose proof (full_store m) as E. pose proof (full_view m) as (V & W & _). destruct (fullStats m) as [m' [s|e]]; cbn [fst] in *.
    + apply (G m' E) with (v := Some (s_mean s)). unfold in_use. now rewrite V, W.
    + now apply framed_same.
Qed.
Lemma framed_via m m1 m2 : store m1 = store m -> in_use m1 = in_use m -> framed m1 m2 -> framed m m2.
Proof. unfold framed. intros -> ->. auto. Qed.
Lemma step_framed m o : framed m (fst (step m o)) /\ (writes m o = false -> store (fst (step m o)) = store m).
Proof.
  destruct o; cbn [step writes]; try (split; [|discriminate]).
  - split; [|intros H; rewrite activate_store; unfold pre; now rewrite H].
    pose proof (pre_framed m) as (S & F). split; rewrite activate_store; auto.
  - apply set_framed.
  - apply apply_framed.
  - apply edit_framed.
  - unfold clipOutliers. destruct l; destruct p; try apply repl_framed; destruct (amin _); try (now apply framed_same); destruct (amax _); try (now apply framed_same); apply repl_framed.
  - unfold clipSigma. destruct (fwd (scal m)); [|now apply framed_same].
    pose proof (full_store m) as E. pose proof (full_view m) as (V & W & _). destruct (fullStats m) as [m' [st|e]]; cbn [fst] in *; [|now apply framed_same].
    apply (framed_via m m'); [exact E|unfold in_use; now rewrite V, W|apply repl_framed].
  - unfold clipThreshold. destruct c; try apply repl_framed. now apply framed_same.
  - unfold offsetData. destruct o; cbv zeta; try (destruct (amin _); [apply edit_framed|now apply framed_same]); try apply edit_framed;
    pose proof (full_store m) as E; pose proof (full_view m) as (V & W & _); destruct (fullStats m) as [m' [st|e]]; cbn [fst] in *; try (now apply framed_same);
      (apply (framed_via m m'); [exact E|unfold in_use; now rewrite V, W|apply edit_framed]).
  - set (m1 := with_active m (region m) None (f (data m))).
    pose proof (apply_framed m1) as (S & F). split; [exact S|]. intros i j P G. apply (F i j P).
    intros r [<-|[]]. apply G. now left.
  - unfold told. split; [|intros _]; pose proof (full_store m) as E; destruct (fullStats m) as [m' [st|e]]; cbn [fst] in *; auto using framed_same.
  - unfold told. split; [|intros _]; pose proof (linear_store m) as (E & _); destruct (linearStats m) as [m' [st|e]]; cbn [fst] in *; auto using framed_same.
  - split; [now apply framed_same|reflexivity].
  - split; [now apply framed_same|reflexivity].
Qed.

(** For every history of an image object: the image keeps its shape, and a pixel outside the regions in use when
    something was written keeps its value. *)
Theorem C81_frame m0 rs m : history m0 rs m ->
  nx (store m) = nx (store m0) /\ ny (store m) = ny (store m0) /\
  forall i j, pixel (nx (store m0)) (ny (store m0)) i j ->
    (forall r, In r rs -> ~ covers (nx (store m0)) (ny (store m0)) r i j) -> px (store m) i j = px (store m0) i j.
Proof.
  induction 1 as [|rs m o m' out H IH S N]; [auto|]. destruct IH as (A & B & C).
  pose proof (step_framed m o) as (F & W). rewrite S in F, W. cbn [fst] in F, W.
  destruct F as ((F1 & F2) & F3). split; [congruence|]. split; [congruence|]. intros i j P G.
  destruct (writes m o) eqn:E.
  - rewrite F3.
    + apply C; [exact P|]. intros r R. apply G. apply in_or_app. now right.
    + rewrite A, B. exact P.
    + rewrite A, B. intros r R. apply G. apply in_or_app. now left.
  - rewrite (W eq_refl). apply C; auto.
Qed.

(** ** Scalings that make a copy *)
Definition copying (s : scaling) : Prop := match s with Exp | Asinh | Log _ _ _ _ | SB _ => True | _ => False end.
Definition consistent (m : image) : Prop :=
  match scal m with
  | Linear | Power => view m = None \/ view m = Some (region m)
  | LogBase _ => True
  | _ => view m = None
  end.
Lemma copying_view m : consistent m -> copying (scal m) -> view m = None.
Proof. unfold consistent, copying. destruct (scal m); tauto. Qed.
Lemma edit_fields m f : scal (edit m f) = scal m /\ region (edit m f) = region m /\ view (edit m f) = view m /\ fstat (edit m f) = fstat m.
Proof. unfold edit. destruct (view m) as [r|] eqn:V; cbn; auto. Qed.
Lemma apply_fields m : let m' := fst (applyChanges m) in scal m' = scal m /\ region m' = region m /\ view m' = view m.
Proof.
  cbv zeta. unfold applyChanges. destruct (is_linear (scal m)).
  - cbn [fstat with_lstat with_changed]. destruct (fstat m); auto.
  - destruct (inv (scal m)); [|auto]. cbv zeta. destruct (_ && _); [|auto].
    cbn [fstat with_lstat with_changed apply_array with_store]. destruct (fstat m); auto.
Qed.
Lemma full_scal m : scal (fst (fullStats m)) = scal m.
Proof. unfold fullStats. destruct (fstat m), (fwd (scal m)); try reflexivity; destruct (stats_of _); reflexivity. Qed.
Lemma pre_fields m : scal (pre m) = scal m /\ region (pre m) = region m /\ view (pre m) = view m.
Proof. unfold pre. destruct (_ && _); [apply apply_fields|auto]. Qed.
Lemma activate_consistent m q : consistent m -> consistent (fst (activateRange m q)).
Proof.
  intros C. assert (C' : consistent (pre m)). { unfold consistent in *. destruct (pre_fields m) as (-> & -> & ->). exact C. }
  assert (G : forall r, consistent (fst (match fwd (scal (pre m)) with
      | None => (with_active (pre m) r (view (pre m)) (own (pre m)), Exc AttributeError)
      | Some f => (with_active (pre m) r (if shares (scal (pre m)) then Some r else None) (amap f (extract (pre m) r)), Done) end))).
  { intros r. unfold consistent. destruct (scal (pre m)) eqn:E; cbn; rewrite E; cbn; auto. }
  unfold activateRange. fold (pre m). cbv zeta. destruct q; try (apply (G None)); try (apply G); try exact C'.
  destruct (_ || _); [exact C'|apply G].
Qed.
Lemma set_consistent m q : consistent m -> consistent (fst (setScaling m q)).
Proof.
  intros C. unfold setScaling. pose proof (make_store m q) as H. cbv zeta in H. destruct (make_scaling m q) as [m' [[s|]|e]]; cbn [fst] in *;
    destruct H as (H1 & H2 & H3 & H4 & H5 & H6 & H7 & H8); try (unfold consistent in *; now rewrite H6, H2, H3).
  set (m1 := with_scal m' s). unfold activateRange. fold (pre m1). cbv zeta.
  destruct (pre_fields m1) as (E1 & E2 & E3).
  assert (G : consistent (fst (match fwd (scal (pre m1)) with
      | None => (with_active (pre m1) (region m1) (view (pre m1)) (own (pre m1)), Exc AttributeError)
      | Some f => (with_active (pre m1) (region m1) (if shares (scal (pre m1)) then Some (region m1) else None) (amap f (extract (pre m1) (region m1))), Done) end))).
  { unfold consistent. destruct (scal (pre m1)) eqn:E; cbn; rewrite E; cbn; auto. }
  destruct (again (region m1)) eqn:R; unfold again in R; destruct (region m1); try discriminate; [exact G|injection R as <-; exact G].
Qed.
Lemma repl_consistent m act c : consistent m -> consistent (fst (repl_inds m act c)).
Proof.
  intros C. assert (G : forall m', consistent m' -> forall v,
    consistent (fst (match v with
      | Some v => (with_changed (edit m' (fun _ _ x => if c x then v else x)) true, Counts (column_counts (data m) c))
      | None => if existsb c (ravel (data m)) then (m', NotANumber) else (with_changed m' true, Counts (column_counts (data m) c)) end))).
  { intros m' C' v. destruct v as [v|]; cbn [fst].
    - unfold consistent in *. cbn [with_changed scal view region]. destruct (edit_fields m' (fun _ _ x => if c x then v else x)) as (-> & -> & -> & _). exact C'.
    - destruct (existsb c _); exact C'. }
  assert (F : consistent (fst (fullStats m))). { unfold consistent in *. destruct (full_view m) as (-> & -> & _). now rewrite full_scal. }
  pose proof (G m C) as G0.
  unfold repl_inds. cbv zeta. destruct act; try (apply G0); try exact C; try (apply (G0 (Some v)));
    destruct (fullStats m) as [m' [s|e]]; cbn [fst] in *; try exact F; [apply (G m' F (Some (s_median s)))|apply (G m' F (Some (s_mean s)))].
Qed.
Lemma step_consistent m o : consistent m -> consistent (fst (step m o)).
Proof.
  intros C. assert (F : consistent (fst (fullStats m))). { unfold consistent in *. destruct (full_view m) as (-> & -> & _). now rewrite full_scal. }
  assert (ED : forall m', consistent m' -> forall f, consistent (with_changed (edit m' f) true)).
  { intros m' C' f. unfold consistent in *. cbn [with_changed scal view region]. destruct (edit_fields m' f) as (-> & -> & -> & _). exact C'. }
  destruct o; cbn [step].
  - now apply activate_consistent.
  - now apply set_consistent.
  - unfold consistent in *. destruct (apply_fields m) as (-> & -> & ->). exact C.
  - apply (ED m C).
  - unfold clipOutliers. destruct l; destruct p; try (now apply repl_consistent); destruct (amin _); try exact C; destruct (amax _); try exact C; now apply repl_consistent.
  - unfold clipSigma. destruct (fwd (scal m)); [|exact C]. destruct (fullStats m) as [m' [st|e]]; cbn [fst] in *; [now apply repl_consistent|exact F].
  - unfold clipThreshold. destruct c; try (now apply repl_consistent). exact C.
  - unfold offsetData. destruct o; cbv zeta; try (destruct (amin _); [apply (ED m C)|exact C]); try (apply (ED m C));
    destruct (fullStats m) as [m' [st|e]]; cbn [fst] in *; try exact F; apply (ED m' F).
  - unfold consistent. destruct (apply_fields (with_active m (region m) None (f (data m)))) as (-> & -> & ->).
    cbn [with_active scal view region]. destruct (scal m); auto.
  - unfold told. destruct (fullStats m) as [m' [st|e]]; exact F.
  - unfold told. assert (L : consistent (fst (linearStats m))). { unfold consistent in *. destruct (linear_store m) as (_ & -> & -> & _ & _ & -> & _). exact C. }
    destruct (linearStats m) as [m' [st|e]]; exact L.
  - exact C.
  - exact C.
Qed.
Lemma reach_consistent m : reach m -> consistent m.
Proof.
  intros (a & r & q & m0 & rs & E & H). induction H as [|rs m o m' out H IH S N].
  - destruct q as [q|]; unfold create in E.
    + set (mi := Image a None (Some None) a Linear false CEmpty None false None None) in E.
      assert (CI : consistent mi) by (right; reflexivity).
      pose proof (make_store mi q) as M. cbv zeta in M. destruct (make_scaling mi q) as [m' [[s|]|e]]; cbn [fst] in M;
        destruct M as (H1 & H2 & H3 & H4 & H5 & H6 & H7 & H8); [|injection E as <-; unfold consistent; now rewrite H6, H2, H3|discriminate].
      unfold activateRange in E. fold (pre (with_scal m' s)) in E. cbv zeta in E.
      assert (P : pre (with_scal m' s) = with_scal m' s) by (unfold pre; cbn [with_scal auto]; now rewrite H4). rewrite P in E. clear P.
      destruct r; try (destruct (_ || _) in E); try discriminate E;
        destruct (fwd (scal (with_scal m' s))) eqn:F; try discriminate E; injection E as <-;
        unfold consistent; cbn [with_active with_scal scal view region] in *; destruct s; try discriminate F; auto.
    + injection E as <-. right. reflexivity.
  - replace m' with (fst (step m o)) by now rewrite S. now apply step_consistent.
Qed.

(** With a scaling that copies, no edit reaches the image until applyChanges (or a stage) is called, and with
    deferred application off selecting another region or scaling discards the edits: only [Apply] and [Stage]
    can change the image. *)
Theorem C81_deferred m o m' out : reach m -> copying (scal m) -> step m o = (m', out) -> auto m && changed m = false ->
  (forall f, o <> Stage f) -> o <> Apply -> store m' = store m.
Proof.
  intros R C S Q N1 N2. apply reach_consistent in R. pose proof (copying_view m R C) as V.
  pose proof (step_framed m o) as (_ & W). rewrite S in W. cbn [fst] in W.
  assert (ED : forall m1 f, view m1 = None -> store (edit m1 f) = store m1) by (intros m1 f E; unfold edit; now rewrite E).
  pose proof (full_store m) as E. pose proof (full_view m) as (VV & _).
  assert (RP : forall m1 act c, view m1 = None -> store (fst (repl_inds m1 act c)) = store m1).
  { intros m1 act c V1. pose proof (full_store m1) as E1. pose proof (full_view m1) as (V2 & _).
    unfold repl_inds. cbv zeta. destruct act; try reflexivity;
      try (destruct (fullStats m1) as [m2 [st|e]]; cbn [fst] in *; try exact E1; cbn [with_changed store]; rewrite ED by congruence; exact E1);
      try (match goal with |- context[match ?x with Some _ => _ | None => _ end] => destruct x end; cbn [fst]; [now apply ED|destruct (existsb c _); reflexivity]);
      now apply ED. }
  assert (G : store (fst (step m o)) = store m); [|rewrite S in G; exact G].
  destruct o; cbn [writes] in W; try (rewrite S; apply W; auto; fail); cbn [step]; try congruence.
  - now apply ED.
  - unfold clipOutliers. destruct l; destruct p; try (now apply RP); destruct (amin _); try reflexivity; destruct (amax _); try reflexivity; now apply RP.
  - unfold clipSigma. destruct (fwd (scal m)); [|reflexivity]. destruct (fullStats m) as [m1 [st|e]]; cbn [fst] in *; [|exact E]. rewrite RP by congruence. exact E.
  - unfold clipThreshold. destruct c; try (now apply RP). reflexivity.
  - unfold offsetData. destruct o; cbv zeta; try (destruct (amin _); [now apply ED|reflexivity]); try (now apply ED);
      (destruct (fullStats m) as [m1 [st|e]]; cbn [fst] in *; [cbn [with_changed store]; rewrite ED by congruence|]; exact E).
Qed.

(** applyChanges writes the active data, brought back to image units, over the selected box and nothing else;
    this is done even when it ends with an exception (see C81_apply_refuted) *)
Theorem C81_apply m s g xl xu yl yu : scal m = s -> In (s, g) [(Power, fun x => x); (Exp, ln); (Asinh, sinh)] \/ (exists o, s = SB o /\ g = fun y => Rpower 10 ((y - o) / - (5/2))) ->
  region m = Some (xl,xu,yl,yu) -> fits (nx (store m)) (ny (store m)) xl xu yl yu ->
  Z.of_nat (nx (data m)) = (xu - xl)%Z -> Z.of_nat (ny (data m)) = (yu - yl)%Z ->
  forall i j, (in_box xl xu yl yu i j -> px (store (fst (applyChanges m))) i j = g (px (data m) (i - Z.to_nat xl) (j - Z.to_nat yl))) /\
              (~ in_box xl xu yl yu i j -> px (store (fst (applyChanges m))) i j = px (store m) i j).
Proof.
  intros S G R F X Y i j.
  assert (I : is_linear (scal m) = false /\ inv (scal m) = Some g).
  { rewrite S. destruct G as [G | (o & -> & ->)]; [|split; reflexivity]. cbn in G. destruct G as [G|[G|[G|[]]]]; injection G as <- <-; split; reflexivity. }
  destruct I as (I1 & I2).
  assert (E : store (fst (applyChanges m)) = put (store m) (xl,xu,yl,yu) (amap g (data m))).
  { unfold applyChanges. rewrite I1, I2. cbv zeta. rewrite R. cbn [extract].
    destruct (sub_shows (store m) xl xu yl yu F) as (SX & SY & _).
    replace (nx (data m) =? nx (sub (store m) (xl, xu, yl, yu)))%nat with true by (symmetry; apply Nat.eqb_eq; lia).
    replace (ny (data m) =? ny (sub (store m) (xl, xu, yl, yu)))%nat with true by (symmetry; apply Nat.eqb_eq; lia).
    cbn [andb]. cbn [fstat with_lstat with_changed apply_array with_store]. destruct (fstat m); reflexivity. }
  rewrite E. pose proof (put_spec (store m) xl xu yl yu (amap g (data m)) i j F) as (P1 & P2).
  split; intros H; [now rewrite P1|now apply P2].
Qed.

(** Assigning one pixel of the data attribute changes exactly that pixel of the data; with a linear scaling it is
    one pixel of the image that changes, at once. *)
Theorem C81_assign m i j v xl xu yl yu : let m' := fst (step m (Poke i j v)) in
  region m = Some (xl,xu,yl,yu) -> fits (nx (store m)) (ny (store m)) xl xu yl yu ->
  pixel (nx (data m)) (ny (data m)) i j ->
  (view m = None -> px (data m') i j = v /\ store m' = store m /\
      forall i' j', (i', j') <> (i, j) -> px (data m') i' j' = px (data m) i' j') /\
  (view m = Some (region m) -> px (data m') i j = v /\
     px (store m') (Z.to_nat xl + i) (Z.to_nat yl + j) = v /\
     forall i' j', (i', j') <> (Z.to_nat xl + i, Z.to_nat yl + j)%nat -> px (store m') i' j' = px (store m) i' j').
Proof.
  cbv zeta. intros R F (PI & PJ). cbn [step fst].
  assert (EQ : forall a b c d, (a =? c)%nat && (b =? d)%nat = true <-> (a, b) = (c, d)).
  { intros a b c d. rewrite andb_true_iff, !Nat.eqb_eq. split; [intros (-> & ->); reflexivity|intros H; injection H as -> ->; auto]. }
  split; intros V.
  - unfold edit. rewrite V. set (d := Arr _ _ _). change (data (with_active m (region m) None d)) with d. split; [|split; [reflexivity|]]; unfold d; cbn [px].
    + now rewrite !Nat.eqb_refl.
    + intros i' j' N. destruct ((i' =? i)%nat && (j' =? j)%nat) eqn:E; [|reflexivity]. apply EQ in E. now rewrite E in N.
  - rewrite R in V. assert (D : data m = sub (store m) (xl,xu,yl,yu)) by (unfold data; now rewrite V).
    destruct (sub_shows (store m) xl xu yl yu F) as (SX & SY & SP). rewrite <- D in SX, SY, SP.
    set (m' := edit m _).
    assert (ST : store m' = put (store m) (xl,xu,yl,yu) (Arr (nx (data m)) (ny (data m)) (fun i0 j0 => if (i0 =? i)%nat && (j0 =? j)%nat then v else px (data m) i0 j0))).
    { unfold m', edit. rewrite V. reflexivity. }
    assert (P : forall i' j', px (store m') i' j' = if (i' =? Z.to_nat xl + i)%nat && (j' =? Z.to_nat yl + j)%nat then v else px (store m) i' j').
    { intros i' j'. rewrite ST. pose proof (put_spec (store m) xl xu yl yu (Arr (nx (data m)) (ny (data m)) (fun i0 j0 => if (i0 =? i)%nat && (j0 =? j)%nat then v else px (data m) i0 j0)) i' j' F) as (P1 & P2).
      destruct F as (F1 & F2 & F3 & F4).
      destruct ((i' =? Z.to_nat xl + i)%nat && (j' =? Z.to_nat yl + j)%nat) eqn:E.
      - apply EQ in E. injection E as -> ->. rewrite P1 by (unfold in_box; lia). cbn [px].
        replace (Z.to_nat xl + i - Z.to_nat xl)%nat with i by lia. replace (Z.to_nat yl + j - Z.to_nat yl)%nat with j by lia. now rewrite !Nat.eqb_refl.
      - destruct (Z_le_gt_dec xl (Z.of_nat i')); [|apply P2; unfold in_box; lia].
        destruct (Z_lt_ge_dec (Z.of_nat i') xu); [|apply P2; unfold in_box; lia].
        destruct (Z_le_gt_dec yl (Z.of_nat j')); [|apply P2; unfold in_box; lia].
        destruct (Z_lt_ge_dec (Z.of_nat j') yu); [|apply P2; unfold in_box; lia].
        rewrite P1 by (unfold in_box; lia). cbn [px].
        replace ((i' - Z.to_nat xl =? i)%nat && (j' - Z.to_nat yl =? j)%nat) with false.
        + apply SP. unfold in_box. lia.
        + symmetry. apply not_true_iff_false. intros H. apply EQ in H. injection H as H1 H2. apply not_true_iff_false in E. apply E, EQ. f_equal; lia. }
    split; [|split].
    + assert (V' : view m' = Some (Some (xl,xu,yl,yu))) by (unfold m'; destruct (edit_fields m (fun i' j' x => if (i' =? i)%nat && (j' =? j)%nat then v else x)) as (_ & _ & -> & _); exact V).
      unfold data. rewrite V'. cbn [extract sub px]. rewrite P. unfold low.
      assert (NS : nx (store m') = nx (store m) /\ ny (store m') = ny (store m)) by (rewrite ST; split; reflexivity). destruct NS as (-> & ->).
      destruct F as (F1 & F2 & F3 & F4). rewrite !bound_in by lia. now rewrite !Nat.eqb_refl.
    + rewrite P. now rewrite !Nat.eqb_refl.
    + intros i' j' N. rewrite P. destruct ((i' =? Z.to_nat xl + i)%nat && (j' =? Z.to_nat yl + j)%nat) eqn:E; [|reflexivity]. apply EQ in E. now rewrite E in N.
Qed.
