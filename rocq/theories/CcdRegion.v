(** * CcdRegion: choosing a region of an image and editing it (C80, C81) *)
From Coq Require Import Reals ZArith List Bool Arith Lia Lra.
From Verif Require Import PyBase AlgModel CcdModel.
Import ListNotations.
Open Scope R_scope.

(** ** Specification.  [(i,j)] is a pixel of an image of shape [(a,b)]; a box is given by its edges. *)
Definition pixel (a b i j : nat) : Prop := (i < a)%nat /\ (j < b)%nat.
Definition in_box (xl xu yl yu : Z) (i j : nat) : Prop := (xl <= Z.of_nat i < xu)%Z /\ (yl <= Z.of_nat j < yu)%Z.
(** the array [d] shows exactly the pixels of [im] inside the box, in order, each passed through [f] *)
Definition shows (f : R -> R) (im : arr) (xl xu yl yu : Z) (d : arr) : Prop :=
  Z.of_nat (nx d) = (xu - xl)%Z /\ Z.of_nat (ny d) = (yu - yl)%Z /\
  forall i j, in_box xl xu yl yu i j -> px d (i - Z.to_nat xl) (j - Z.to_nat yl) = f (px im i j).
(** a box inside an image *)
Definition fits (a b : nat) (xl xu yl yu : Z) : Prop :=
  (0 <= xl <= xu)%Z /\ (xu <= Z.of_nat a)%Z /\ (0 <= yl <= yu)%Z /\ (yu <= Z.of_nat b)%Z.
(** no deferred edits are written by the selection *)
Definition quiet (m : image) : Prop := auto m = false \/ changed m = false.

(** ** Slices *)
Lemma bound_in n z : (0 <= z <= Z.of_nat n)%Z -> bound n z = Z.to_nat z.
Proof. intros H. unfold bound. replace (z <? 0)%Z with false by (symmetry; apply Z.ltb_ge; lia). lia. Qed.
Lemma sub_shows im xl xu yl yu : fits (nx im) (ny im) xl xu yl yu -> shows (fun x => x) im xl xu yl yu (sub im (xl,xu,yl,yu)).
Proof.
  intros (A & B & C & D). unfold shows, sub, len, low, in_box. cbn [nx ny px].
  rewrite !bound_in by lia. split; [lia|]. split; [lia|]. intros i j (E & F). f_equal; lia.
Qed.
Lemma shows_map f im xl xu yl yu d : shows (fun x => x) im xl xu yl yu d -> shows f im xl xu yl yu (amap f d).
Proof. intros (A & B & C). unfold shows, amap. cbn [nx ny px]. repeat split; auto. intros i j H. now rewrite C. Qed.
Lemma within_spec lo n i : within lo n i = true <-> (lo <= i < lo + n)%nat.
Proof. unfold within. rewrite andb_true_iff, Nat.leb_le, Nat.ltb_lt. reflexivity. Qed.
Lemma put_spec im xl xu yl yu d i j : fits (nx im) (ny im) xl xu yl yu ->
  (in_box xl xu yl yu i j -> px (put im (xl,xu,yl,yu) d) i j = px d (i - Z.to_nat xl) (j - Z.to_nat yl)) /\
  (~ in_box xl xu yl yu i j -> px (put im (xl,xu,yl,yu) d) i j = px im i j).
Proof.
  intros (A & B & C & D). unfold put, len, low, in_box. cbn [px]. rewrite !bound_in by lia.
  destruct (within (Z.to_nat xl) (Z.to_nat xu - Z.to_nat xl) i) eqn:E1;
    destruct (within (Z.to_nat yl) (Z.to_nat yu - Z.to_nat yl) j) eqn:E2; cbn [andb];
    (apply within_spec in E1 || (apply not_true_iff_false in E1; rewrite within_spec in E1));
    (apply within_spec in E2 || (apply not_true_iff_false in E2; rewrite within_spec in E2));
    split; intros H; try reflexivity; exfalso; first [apply H; lia | lia].
Qed.

(** ** C80: the region chosen *)
Definition pre (m : image) : image := if auto m && changed m then fst (applyChanges m) else m.
Lemma pre_quiet m : quiet m -> pre m = m.
Proof. unfold pre. intros [-> | ->]; rewrite ?andb_false_r; reflexivity. Qed.

Lemma data_done m r f : fwd (scal m) = Some f -> data (with_active m r (if shares (scal m) then Some r else None) (amap f (extract m r))) = amap f (extract m r) \/
  (shares (scal m) = true /\ f = (fun x => x) /\ data (with_active m r (if shares (scal m) then Some r else None) (amap f (extract m r))) = extract m r).
Proof.
  intros F. destruct (shares (scal m)) eqn:E; [right|left; reflexivity]. repeat split.
  destruct (scal m); cbn in *; congruence.
Qed.
Lemma data_shows m r f xl xu yl yu : fwd (scal m) = Some f -> shows (fun x => x) (store m) xl xu yl yu (extract m r) ->
  shows f (store m) xl xu yl yu (data (with_active m r (if shares (scal m) then Some r else None) (amap f (extract m r)))).
Proof.
  intros F S. destruct (data_done m r f F) as [-> | (_ & -> & ->)]; [|exact S]. now apply shows_map.
Qed.

(** A square about a pixel of the image: the region is the part of the square inside the image, whatever the
    radius; the data are that part of the image under the current scaling; the image is untouched. *)
Theorem C80_square m f xc yc rad : quiet m -> fwd (scal m) = Some f -> (0 <= rad)%Z ->
  (0 <= xc < Z.of_nat (nx (store m)))%Z -> (0 <= yc < Z.of_nat (ny (store m)))%Z ->
  exists m' xl xu yl yu, activateRange m (Square xc yc rad) = (m', Done) /\ store m' = store m /\
    region m' = Some (xl, xu, yl, yu) /\ fits (nx (store m)) (ny (store m)) xl xu yl yu /\
    (forall i j, pixel (nx (store m)) (ny (store m)) i j ->
       (in_box xl xu yl yu i j <-> in_box (xc - rad) (xc + rad) (yc - rad) (yc + rad) i j)) /\
    shows f (store m) xl xu yl yu (data m').
Proof.
  intros Q F R X Y. unfold activateRange. fold (pre m). rewrite (pre_quiet m Q). cbv zeta.
  replace ((xc <? 0)%Z || (xc >=? Z.of_nat (nx (store m)))%Z || (yc <? 0)%Z || (yc >=? Z.of_nat (ny (store m)))%Z) with false
    by (symmetry; rewrite !orb_false_iff, !Z.ltb_ge, !Z.geb_leb, !Z.leb_gt; lia).
  rewrite F.
  set (xl := if (xc - rad >? 0)%Z then (xc - rad)%Z else 0%Z). set (xu := if (xc + rad <=? Z.of_nat (nx (store m)))%Z then (xc + rad)%Z else Z.of_nat (nx (store m))).
  set (yl := if (yc - rad >? 0)%Z then (yc - rad)%Z else 0%Z). set (yu := if (yc + rad <=? Z.of_nat (ny (store m)))%Z then (yc + rad)%Z else Z.of_nat (ny (store m))).
  assert (XL : xl = Z.max 0 (xc - rad)) by (unfold xl; rewrite Z.gtb_ltb; destruct (Z.ltb_spec 0 (xc - rad)); lia).
  assert (YL : yl = Z.max 0 (yc - rad)) by (unfold yl; rewrite Z.gtb_ltb; destruct (Z.ltb_spec 0 (yc - rad)); lia).
  assert (XU : xu = Z.min (Z.of_nat (nx (store m))) (xc + rad)) by (unfold xu; destruct (Z.leb_spec (xc + rad) (Z.of_nat (nx (store m)))); lia).
  assert (YU : yu = Z.min (Z.of_nat (ny (store m))) (yc + rad)) by (unfold yu; destruct (Z.leb_spec (yc + rad) (Z.of_nat (ny (store m)))); lia).
  clearbody xl xu yl yu.
  assert (FT : fits (nx (store m)) (ny (store m)) xl xu yl yu) by (unfold fits; lia).
  eexists _, xl, xu, yl, yu. split; [reflexivity|]. split; [reflexivity|]. split; [reflexivity|]. split; [exact FT|].
  split.
  - intros i j (I & J). unfold in_box. lia.
  - apply data_shows; [exact F|]. cbn [extract]. now apply sub_shows.
Qed.
(** an explicit box inside the image *)
Theorem C80_box m f xl xu yl yu : quiet m -> fwd (scal m) = Some f -> fits (nx (store m)) (ny (store m)) xl xu yl yu ->
  exists m', activateRange m (Box (xl,xu,yl,yu)) = (m', Done) /\ store m' = store m /\ region m' = Some (xl,xu,yl,yu) /\
    shows f (store m) xl xu yl yu (data m').
Proof.
  intros Q F FT. unfold activateRange. fold (pre m). rewrite (pre_quiet m Q). cbv zeta. rewrite F.
  eexists. split; [reflexivity|]. split; [reflexivity|]. split; [reflexivity|].
  apply data_shows; [exact F|]. cbn [extract]. now apply sub_shows.
Qed.
(** the whole image *)
Theorem C80_whole m f : quiet m -> fwd (scal m) = Some f ->
  exists m', activateRange m Whole = (m', Done) /\ store m' = store m /\ region m' = None /\
    shows f (store m) 0 (Z.of_nat (nx (store m))) 0 (Z.of_nat (ny (store m))) (data m').
Proof.
  intros Q F. unfold activateRange. fold (pre m). rewrite (pre_quiet m Q). cbv zeta. rewrite F.
  eexists. split; [reflexivity|]. split; [reflexivity|]. split; [reflexivity|].
  apply data_shows; [exact F|]. cbn [extract]. unfold shows, in_box. repeat split; try lia.
  intros i j H. f_equal; lia.
Qed.
(** a centre outside the image, or a malformed request: an exception, and nothing has changed *)
Theorem C80_refused m : quiet m ->
  (forall xc yc rad, ~ ((0 <= xc < Z.of_nat (nx (store m)))%Z /\ (0 <= yc < Z.of_nat (ny (store m)))%Z) ->
     activateRange m (Square xc yc rad) = (m, Exc IndexError)) /\
  activateRange m Other = (m, Exc ValueError).
Proof.
  intros Q. split.
  - intros xc yc rad H. unfold activateRange. fold (pre m). rewrite (pre_quiet m Q). cbv zeta.
    replace ((xc <? 0)%Z || (xc >=? Z.of_nat (nx (store m)))%Z || (yc <? 0)%Z || (yc >=? Z.of_nat (ny (store m)))%Z) with true; [reflexivity|].
    symmetry. rewrite !orb_true_iff, !Z.ltb_lt, !Z.geb_leb, !Z.leb_le. lia.
  - unfold activateRange. fold (pre m). now rewrite (pre_quiet m Q).
Qed.
(** The region given to the constructor together with a scaling is the one selected... *)
Theorem C80_constructor a r s f : In (s, f) [(SLinear, fun x => x); (SPower, fun x => x); (SExp, exp); (SAsinh, arcsinh)] ->
  forall m o, create a r (Some s) = (m, o) -> store m = a /\
    (forall b, r = Box b -> o = Done /\ region m = Some b) /\
    (forall xl xu yl yu, r = Box (xl,xu,yl,yu) -> fits (nx a) (ny a) xl xu yl yu -> shows f a xl xu yl yu (data m)).
Proof.
  intros H m o E.
  assert (G : exists s', make_scaling (Image a None (Some None) a Linear false CEmpty None false None None) s
              = (Image a None (Some None) a Linear false CEmpty None false None None, inl (Some s')) /\ fwd s' = Some f).
  { cbn in H. destruct H as [H|[H|[H|[H|[]]]]]; injection H as <- <-; eexists; split; reflexivity. }
  destruct G as (s' & G & F). unfold create in E. rewrite G in E.
  unfold activateRange in E. cbn [auto changed with_scal andb] in E. cbv zeta in E. cbn [scal with_scal] in E. rewrite F in E.
  split.
  - destruct r; cbv iota beta in E; try (destruct (_ || _) in E); injection E as <- <-; reflexivity.
  - split.
    + intros b ->. injection E as <- <-. split; reflexivity.
    + intros xl xu yl yu -> FT. injection E as <- <-.
      set (m0 := with_scal _ s'). change a with (store m0) at 1. change s' with (scal m0) at 1.
      apply (data_shows m0 (Some (xl,xu,yl,yu))); [exact F|]. cbn [extract]. now apply sub_shows.
Qed.
(** ... but without a scaling it is ignored *)
Theorem C80_constructor_refuted a r : exists m, create a r None = (m, Done) /\ region m = None /\ data m = a.
Proof. eexists. split; [reflexivity|]. split; reflexivity. Qed.
(** A negative radius is not refused, and near the edge selects pixels far from the centre. *)
Theorem C80_negative_refuted : exists m m', activateRange m (Square 0 0 (-2)) = (m', Done) /\ region m' = Some (2, -2, 2, -2)%Z /\ nx (data m') = 6%nat.
Proof.
  set (a := Arr 10 10 (fun _ _ => 0)).
  exists (Image a None (Some None) a Linear false CEmpty None false None None). eexists. split; [reflexivity|]. split; reflexivity.
Qed.
Example C80_case : let a := Arr 10 10 (fun i j => INR i) in
  let m := Image a None (Some None) a Exp false CEmpty None false None None in
  quiet m /\ fwd (scal m) = Some exp /\ fits (nx (store m)) (ny (store m)) 2 5 0 10 /\
  exists m', activateRange m (Square 1 8 4) = (m', Done) /\ region m' = Some (0, 5, 4, 10)%Z /\ nx (data m') = 5%nat /\ ny (data m') = 6%nat.
Proof.
  cbv zeta. split; [now left|]. split; [reflexivity|]. split; [unfold fits; cbn [nx ny store]; lia|].
  eexists. split; [reflexivity|]. repeat split.
Qed.
