(** * FitsProof: images in FITS files (C126) *)
From Coq Require Import Reals ZArith List Bool Arith Lia Lra String.
From Verif Require Import PyBase CcdModel CcdRegion FitsModel.
Import ListNotations.
Open Scope R_scope.

(** ** Specification *)
(** the pixel x = i, y = j of HDU k of a file (FITS images are stored rows first) *)
Definition at_ (f : list hdu) (k i j : nat) : option R :=
  match nth_error f k with
  | Some h => match pixels h with Some a => if ((i <? ny a) && (j <? nx a))%nat then Some (px a j i) else None | None => None end
  | None => None
  end.
(** what no operation changes: the number of HDUs, their shapes, their headers *)
Definition skel (f : list hdu) : list (option (nat * nat) * keys) := map (fun h => (option_map (fun a => (nx a, ny a)) (pixels h), hkeys h)) f.
(** the image HDU k is [a], and the image object is settled on it *)
Definition current (m : fimage) (k : nat) (a : arr) : Prop := chdu m = Some (newhdu m) /\ position (List.length (hdus m)) (newhdu m) = Some k /\ exists h, nth_error (hdus m) k = Some h /\ pixels h = Some a.
(** pixel i, j belongs to a range (None: the whole image); negative edges count from the end, as in Python *)
Definition edge (n : nat) (z : Z) : Z := if (z <? 0)%Z then (z + Z.of_nat n)%Z else z.
Definition in_range (n1 n2 : nat) (r : option box) (i j : nat) : Prop :=
  match r with None => True | Some (xl, xu, yl, yu) => (edge n1 xl <= Z.of_nat i < edge n1 xu)%Z /\ (edge n2 yl <= Z.of_nat j < edge n2 yu)%Z end.
(** the data attribute shows pixel i, j of HDU k *)
Definition displayed (m : fimage) (k i j : nat) : Prop :=
  exists h a, nth_error (hdus m) k = Some h /\ pixels h = Some a /\
  match view m with
  | Some (k', r) => k' = k /\ in_range (ny a) (nx a) r i j
  | None => (exists z, chdu m = Some z /\ position (List.length (hdus m)) z = Some k) /\ in_range (ny a) (nx a) (rng m) i j
  end.

(** ** Extracting *)
Lemma position_lt n z k : position n z = Some k -> (k < n)%nat.
Proof. unfold position. destruct (Z.ltb_spec z 0); [destruct (Z.ltb_spec (z + Z.of_nat n) 0)|destruct (Z.ltb_spec z (Z.of_nat n))]; intros E; try discriminate; injection E as <-; lia. Qed.
Lemma cut_Ok f z r k a : cut f z r = Ok (k, a) -> position (List.length f) z = Some k /\ exists h a0, nth_error f k = Some h /\ pixels h = Some a0 /\ a = part f k r /\
  match r with None => a = transpose a0 | Some (xl, xu, yl, yu) => a = sub (transpose a0) (xl, xu, yl, yu) /\ (0 <= xl)%Z /\ (xu <= Z.of_nat (ny a0))%Z /\ (0 <= yl)%Z /\ (yu <= Z.of_nat (nx a0))%Z end.
Proof.
  unfold cut. destruct (position (List.length f) z) as [k'|]; [|discriminate]. destruct (nth_error f k') as [h|] eqn:Eh; [|discriminate]. destruct (pixels h) as [a0|] eqn:Ea; [|destruct r; discriminate]. destruct r as [(((xl, xu), yl), yu)|].
  - destruct ((xl <? 0)%Z || (xu >? Z.of_nat (ny a0))%Z || (yl <? 0)%Z || (yu >? Z.of_nat (nx a0))%Z) eqn:E; [discriminate|]. intros H. injection H as <- <-. rewrite !orb_false_iff, !Z.ltb_ge, !Z.gtb_ltb, !Z.ltb_ge in E. split; [reflexivity|]. exists h, a0. split; [exact Eh|]. split; [exact Ea|]. split; [unfold part; now rewrite Eh, Ea|]. split; [reflexivity|lia].
  - intros H. injection H as <- <-. split; [reflexivity|]. exists h, a0. split; [exact Eh|]. split; [exact Ea|]. split; [unfold part; now rewrite Eh, Ea|reflexivity].
Qed.
Lemma skel_nth f f' k : skel f = skel f' -> match nth_error f k, nth_error f' k with
  | Some h, Some h' => hkeys h = hkeys h' /\ match pixels h, pixels h' with Some a, Some a' => nx a = nx a' /\ ny a = ny a' | None, None => True | _, _ => False end
  | None, None => True | _, _ => False end.
Proof.
  intros E. assert (N := f_equal (fun l => nth_error l k) E). cbn beta in N. unfold skel in N. rewrite !nth_error_map in N. destruct (nth_error f k) as [h|], (nth_error f' k) as [h'|]; cbn [option_map] in N; try discriminate; [|exact I]. injection N as N1 N2. split; [exact N2|]. destruct (pixels h), (pixels h'); cbn [option_map] in N1; try discriminate; [|exact I]. now injection N1 as N1 N3.
Qed.
Lemma skel_length f f' : skel f = skel f' -> List.length f = List.length f'.
Proof. intros E. apply (f_equal (@List.length _)) in E. unfold skel in E. now rewrite !map_length in E. Qed.
Lemma cut_skel f f' z r : skel f = skel f' -> match cut f z r with
  | Ok (k, a) => exists a', cut f' z r = Ok (k, a') /\ nx a' = nx a /\ ny a' = ny a
  | Raise e => cut f' z r = Raise e
  | OutOfFuel => False end.
Proof.
  intros E. unfold cut. rewrite (skel_length f f' E). destruct (position (List.length f') z) as [k|]; [|reflexivity]. pose proof (skel_nth f f' k E) as S. destruct (nth_error f k) as [h|], (nth_error f' k) as [h'|]; try contradiction; [|reflexivity]. destruct S as (_ & S). destruct (pixels h) as [a|], (pixels h') as [a'|]; try contradiction; [|destruct r; reflexivity]. destruct S as (S1 & S2).
  destruct r as [(((xl, xu), yl), yu)|].
  - rewrite S1, S2. destruct ((xl <? 0)%Z || (xu >? Z.of_nat (ny a'))%Z || (yl <? 0)%Z || (yu >? Z.of_nat (nx a'))%Z); [reflexivity|]. eexists. split; [reflexivity|]. unfold sub, transpose. cbn [nx ny]. now rewrite S1, S2.
  - eexists. split; [reflexivity|]. unfold transpose. cbn [nx ny]. split; congruence.
Qed.
Lemma part_skel f f' k r : skel f = skel f' -> nx (part f k r) = nx (part f' k r) /\ ny (part f k r) = ny (part f' k r).
Proof.
  intros E. unfold part. pose proof (skel_nth f f' k E) as S. destruct (nth_error f k) as [h|], (nth_error f' k) as [h'|]; try contradiction; [|split; reflexivity]. destruct S as (_ & S). destruct (pixels h) as [a|], (pixels h') as [a'|]; try contradiction; [|split; reflexivity]. destruct S as (S1 & S2). destruct r as [(((xl, xu), yl), yu)|]; unfold sub, transpose; cbn [nx ny]; rewrite ?S1, ?S2; split; congruence.
Qed.
Lemma set_hdu_nth f k a k' : nth_error (set_hdu f k a) k' = if Nat.eqb k' k then option_map (fun h => HDU (Some a) (hkeys h)) (nth_error f k') else nth_error f k'.
Proof. revert k k'. induction f as [|h f IH]; intros [|k] [|k']; cbn [set_hdu nth_error]; try reflexivity; [destruct (Nat.eqb (S k') (S k)); reflexivity|]. exact (IH k k'). Qed.
Lemma set_hdu_skel f k h a a' : nth_error f k = Some h -> pixels h = Some a -> nx a' = nx a -> ny a' = ny a -> skel (set_hdu f k a') = skel f.
Proof.
  revert k. induction f as [|g f IH]; intros [|k] N P X Y; cbn [nth_error] in N; try discriminate.
  - injection N as ->. cbn [set_hdu skel map pixels hkeys]. rewrite P. cbn [option_map]. now rewrite X, Y.
  - cbn [set_hdu skel map]. f_equal. now apply IH.
Qed.
Lemma data_activated m r k a : a = part (hdus m) k r -> data (activated m r k a) = amap (fwd_k (scal m)) a \/ data (activated m r k a) = a /\ fwd_k (scal m) = (fun x => x).
Proof.
  intros ->. unfold data, activated. cbn [view own hdus scal]. destruct (scal m) eqn:E; cbn [shares_k]; try (left; reflexivity); right; split; reflexivity.
Qed.
Lemma shows_activated m r k a im xl xu yl yu : a = part (hdus m) k r -> shows (fun x => x) im xl xu yl yu a -> shows (fwd_k (scal m)) im xl xu yl yu (data (activated m r k a)).
Proof. intros E S. destruct (data_activated m r k a E) as [-> |(-> & ->)]; [now apply shows_map|exact S]. Qed.
Lemma current_cut m k a : current m k a -> forall r, cut (hdus m) (newhdu m) r = match r with None => Ok (k, transpose a) | Some (xl, xu, yl, yu) => if (xl <? 0)%Z || (xu >? Z.of_nat (ny a))%Z || (yl <? 0)%Z || (yu >? Z.of_nat (nx a))%Z then Raise IndexError else Ok (k, sub (transpose a) (xl, xu, yl, yu)) end.
Proof. intros (_ & P & h & H & A) r. unfold cut. now rewrite P, H, A. Qed.
Lemma current_extract m k a r : current m k a -> extractArray m r = (m, cut (hdus m) (newhdu m) r).
Proof. intros (C & _). unfold extractArray. rewrite C, Z.eqb_refl. reflexivity. Qed.

(** ** Selecting regions *)
(** A box inside the image of the current HDU: the data are exactly that part, x first, under the scaling; the file is untouched. *)
Theorem C126_box : forall m k a xl xu yl yu, current m k a -> fits (ny a) (nx a) xl xu yl yu ->
  exists m', activateRange m (Box (xl, xu, yl, yu)) = (m', Ok tt) /\ hdus m' = hdus m /\ current m' k a /\ rng m' = Some (xl, xu, yl, yu) /\ shows (fwd_k (scal m)) (transpose a) xl xu yl yu (data m').
Proof.
  intros m k a xl xu yl yu C F. unfold activateRange, activate. rewrite (current_extract m k a _ C), (current_cut m k a C). destruct F as (F1 & F2 & F3 & F4).
  replace ((xl <? 0)%Z || (xu >? Z.of_nat (ny a))%Z || (yl <? 0)%Z || (yu >? Z.of_nat (nx a))%Z) with false by (symmetry; rewrite !orb_false_iff, !Z.ltb_ge, !Z.gtb_ltb, !Z.ltb_ge; lia).
  eexists. split; [reflexivity|]. split; [reflexivity|]. split; [exact C|]. split; [reflexivity|]. apply shows_activated; [|apply sub_shows; unfold transpose; cbn [nx ny]; repeat split; lia]. destruct C as (_ & _ & h & H & A). unfold part. now rewrite H, A.
Qed.
(** A box that leaves the image is an IndexError and changes nothing. *)
Theorem C126_box_outside : forall m k a xl xu yl yu, current m k a -> (xl < 0 \/ Z.of_nat (ny a) < xu \/ yl < 0 \/ Z.of_nat (nx a) < yu)%Z -> activateRange m (Box (xl, xu, yl, yu)) = (m, Raise IndexError).
Proof.
  intros m k a xl xu yl yu C O. unfold activateRange, activate. rewrite (current_extract m k a _ C), (current_cut m k a C).
  replace ((xl <? 0)%Z || (xu >? Z.of_nat (ny a))%Z || (yl <? 0)%Z || (yu >? Z.of_nat (nx a))%Z) with true; [reflexivity|]. symmetry. rewrite !orb_true_iff, !Z.ltb_lt, !Z.gtb_lt. lia.
Qed.
Lemma whole_shows a : shows (fun x => x) a 0 (Z.of_nat (nx a)) 0 (Z.of_nat (ny a)) a.
Proof. unfold shows. repeat split; try lia. intros i j _. now rewrite !Nat.sub_0_r. Qed.
(** The whole image. *)
Theorem C126_whole : forall m k a, current m k a -> exists m', activateRange m Whole = (m', Ok tt) /\ hdus m' = hdus m /\ current m' k a /\ rng m' = None /\
  shows (fwd_k (scal m)) (transpose a) 0 (Z.of_nat (ny a)) 0 (Z.of_nat (nx a)) (data m').
Proof.
  intros m k a C. unfold activateRange, activate. rewrite (current_extract m k a _ C), (current_cut m k a C). eexists. split; [reflexivity|]. split; [reflexivity|]. split; [exact C|]. split; [reflexivity|]. apply shows_activated; [|apply (whole_shows (transpose a))]. destruct C as (_ & _ & h & H & A). unfold part. now rewrite H, A.
Qed.
(** A square about a pixel of the image: the part of the square inside the image, whatever the radius. *)
Theorem C126_square : forall m k a xc yc rad, current m k a -> (0 <= rad)%Z -> (0 <= xc < Z.of_nat (ny a))%Z -> (0 <= yc < Z.of_nat (nx a))%Z ->
  exists m' xl xu yl yu, activateRange m (Square xc yc rad) = (m', Ok tt) /\ hdus m' = hdus m /\ current m' k a /\ rng m' = Some (xl, xu, yl, yu) /\ fits (ny a) (nx a) xl xu yl yu /\
    (forall i j, pixel (ny a) (nx a) i j -> (in_box xl xu yl yu i j <-> in_box (xc - rad) (xc + rad) (yc - rad) (yc + rad) i j)) /\ shows (fwd_k (scal m)) (transpose a) xl xu yl yu (data m').
Proof.
  intros m k a xc yc rad C R X Y. unfold activateRange. rewrite (current_extract m k a _ C), (current_cut m k a C). cbv zeta. cbn [transpose nx ny]. set (n1 := Z.of_nat (ny a)) in *. set (n2 := Z.of_nat (nx a)) in *.
  replace ((xc <? 0)%Z || (xc >=? n1)%Z || (yc <? 0)%Z || (yc >=? n2)%Z) with false by (symmetry; rewrite !orb_false_iff, !Z.ltb_ge, !Z.geb_leb, !Z.leb_gt; lia).
  set (xl := if (xc - rad >? 0)%Z then (xc - rad)%Z else 0%Z). set (xu := if (xc + rad <=? n1)%Z then (xc + rad)%Z else n1). set (yl := if (yc - rad >? 0)%Z then (yc - rad)%Z else 0%Z). set (yu := if (yc + rad <=? n2)%Z then (yc + rad)%Z else n2).
  assert (XL : xl = Z.max 0 (xc - rad)) by (unfold xl; rewrite Z.gtb_ltb; destruct (Z.ltb_spec 0 (xc - rad)); lia).
  assert (YL : yl = Z.max 0 (yc - rad)) by (unfold yl; rewrite Z.gtb_ltb; destruct (Z.ltb_spec 0 (yc - rad)); lia).
  assert (XU : xu = Z.min n1 (xc + rad)) by (unfold xu; destruct (Z.leb_spec (xc + rad) n1); lia).
  assert (YU : yu = Z.min n2 (yc + rad)) by (unfold yu; destruct (Z.leb_spec (yc + rad) n2); lia).
  assert (F : fits (ny a) (nx a) xl xu yl yu) by (unfold fits; fold n1 n2; lia). destruct (C126_box m k a xl xu yl yu C F) as (m' & E & H & C' & G & S). unfold activateRange in E. exists m', xl, xu, yl, yu. split; [exact E|]. split; [exact H|]. split; [exact C'|]. split; [exact G|]. split; [exact F|]. split; [|exact S].
  intros i j (Pi & Pj). unfold in_box. rewrite XL, XU, YL, YU. unfold n1, n2. lia.
Qed.
(** ** Opening and changing the HDU *)
(** An array becomes the only HDU: data[x,y] is the array's element x, y. *)
Theorem C126_array : forall a, exists m, newFits (SArray a) None 0 = Ok m /\ rng m = None /\ current m 0 (transpose a) /\ data m = a.
Proof.
  intros a. eexists. split; [reflexivity|]. split; [reflexivity|]. split; [|destruct a; reflexivity]. split; [reflexivity|]. split; [reflexivity|]. eexists. split; reflexivity.
Qed.
Lemma open_hdu f z k h a ds : position (List.length f) z = Some k -> nth_error f k = Some h -> pixels h = Some a -> ds = FImage f None z None None (Arr 0 0 (fun _ _ => 0)) KLinear true None None ->
  exists m, activate ds None = (m, Ok tt) /\ hdus m = f /\ current m k a /\ rng m = None /\ fdict m = true /\ shows (fun x => x) (transpose a) 0 (Z.of_nat (ny a)) 0 (Z.of_nat (nx a)) (data m) /\ zpt m = read_zpt (hkeys h) None /\ pixscale m = read_scale (hkeys h) None /\ view m = Some (k, None) /\ scal m = KLinear.
Proof.
  intros P H A ->. unfold activate, extractArray. cbn [chdu fdict negb hdus newhdu]. unfold cut. rewrite P, H, A. unfold updateFromHeader. cbn [with_chdu hdus]. rewrite H. cbn [chdu newhdu rng view own scal fdict zpt pixscale]. eexists. split; [reflexivity|]. split; [reflexivity|]. split; [split; [reflexivity|split; [exact P|exists h; split; [exact H|exact A]]]|]. split; [reflexivity|]. split; [reflexivity|]. split; [|repeat split; reflexivity].
  unfold data, activated. cbn [with_chdu hdus chdu newhdu rng view own scal fdict zpt pixscale shares_k]. unfold part. rewrite H, A. apply (whole_shows (transpose a)).
Qed.
(** A file opened at an HDU with an image (negative numbers count from the end): the whole image, x first, with the
    pixel scale and zero point of its header. *)
Theorem C126_file : forall name f z k h a, ends_with (SpecModel.lower name) "fits" = true -> position (List.length f) z = Some k -> nth_error f k = Some h -> pixels h = Some a ->
  exists m, newFits (SFile name f) None z = Ok m /\ hdus m = f /\ current m k a /\ rng m = None /\ shows (fun x => x) (transpose a) 0 (Z.of_nat (ny a)) 0 (Z.of_nat (nx a)) (data m) /\
    zpt m = (match ZEROPOINT (hkeys h) with Some v => Some v | None => ZEROPT (hkeys h) end) /\
    pixscale m = (match PIXSCALE (hkeys h), PIXSCAL1 (hkeys h), PIXSCAL2 (hkeys h) with Some v, _, _ => Some (v, v) | None, Some v, Some w => Some (v, w) | None, Some v, None => Some (v, v) | None, None, _ => None end).
Proof.
  intros name f z k h a E P H A. unfold newFits, opened. rewrite E, orb_true_r. destruct (open_hdu f z k h a _ P H A eq_refl) as (m & Em & Hf & C & G & _ & S & Z & Q & _). rewrite Em. exists m. split; [reflexivity|]. split; [exact Hf|]. split; [exact C|]. split; [exact G|]. split; [exact S|]. rewrite Z, Q. unfold read_zpt, read_scale. destruct (ZEROPOINT (hkeys h)), (ZEROPT (hkeys h)), (PIXSCALE (hkeys h)), (PIXSCAL1 (hkeys h)), (PIXSCAL2 (hkeys h)); split; reflexivity.
Qed.
Theorem C126_file_name : forall name f k z, ends_with (SpecModel.lower name) "fits" = false -> ends_with (SpecModel.lower name) "fit" = false -> newFits (SFile name f) k z = Raise IOErr.
Proof. intros name f k z E1 E2. unfold newFits, opened. now rewrite E1, E2. Qed.
(** Another HDU: if the selected range is inside its image (or the whole image is selected) the data are that part of
    the new image; its header values are read; nothing in the file changes. *)
Definition fits_range (n1 n2 : nat) (r : option box) : Prop := match r with None => True | Some (xl, xu, yl, yu) => fits n1 n2 xl xu yl yu end.
Definition range_shows (f : R -> R) (im : arr) (r : option box) (d : arr) : Prop := match r with None => shows f im 0 (Z.of_nat (nx im)) 0 (Z.of_nat (ny im)) d | Some (xl, xu, yl, yu) => shows f im xl xu yl yu d end.
Lemma fits_cut f z k h a r : position (List.length f) z = Some k -> nth_error f k = Some h -> pixels h = Some a -> fits_range (ny a) (nx a) r -> exists d, cut f z r = Ok (k, d) /\ d = part f k r /\ range_shows (fun x => x) (transpose a) r d.
Proof.
  intros P H A F. unfold cut. rewrite P, H, A. destruct r as [(((xl, xu), yl), yu)|].
  - pose proof F as (F1 & F2 & F3 & F4). replace ((xl <? 0)%Z || (xu >? Z.of_nat (ny a))%Z || (yl <? 0)%Z || (yu >? Z.of_nat (nx a))%Z) with false by (symmetry; rewrite !orb_false_iff, !Z.ltb_ge, !Z.gtb_ltb, !Z.ltb_ge; lia).
    eexists. split; [reflexivity|]. split; [unfold part; now rewrite H, A|]. apply sub_shows. exact F.
  - eexists. split; [reflexivity|]. split; [unfold part; now rewrite H, A|]. apply (whole_shows (transpose a)).
Qed.
Theorem C126_switch : forall m z k h a, fdict m = true -> chdu m <> Some z -> position (List.length (hdus m)) z = Some k -> nth_error (hdus m) k = Some h -> pixels h = Some a -> fits_range (ny a) (nx a) (rng m) ->
  exists m', setHdu m z = (m', Ok tt) /\ chdu m' = Some z /\ hdus m' = hdus m /\ current m' k a /\ rng m' = rng m /\ range_shows (fwd_k (scal m)) (transpose a) (rng m) (data m') /\
    zpt m' = read_zpt (hkeys h) (zpt m) /\ pixscale m' = read_scale (hkeys h) (pixscale m).
Proof.
  intros m z k h a D N P H A F. destruct (fits_cut (hdus m) z k h a (rng m) P H A F) as (d & Ec & Ed & S). unfold setHdu, activate, extractArray. cbn [chdu newhdu fdict hdus].
  assert (Sw : forall X : fimage * @res (nat * arr), match chdu m with Some z0 => if (z0 =? z)%Z then (FImage (hdus m) (chdu m) z (rng m) (view m) (own m) (scal m) (fdict m) (zpt m) (pixscale m), cut (hdus m) z0 (rng m)) else X | None => X end = X). { intros X. destruct (chdu m) as [z0|]; [|reflexivity]. destruct (Z.eqb_spec z0 z) as [-> |_]; [congruence|reflexivity]. }
  rewrite Sw. rewrite D. cbn [negb]. rewrite Ec. unfold updateFromHeader. cbn [with_chdu hdus newhdu]. rewrite H. cbn [chdu newhdu rng view own scal fdict zpt pixscale]. eexists. split; [reflexivity|]. split; [reflexivity|]. split; [reflexivity|]. split; [split; [reflexivity|split; [exact P|exists h; split; [exact H|exact A]]]|]. split; [reflexivity|]. split; [|split; reflexivity].
  unfold range_shows in *. destruct (rng m) as [(((xl, xu), yl), yu)|]; match goal with |- shows _ _ _ _ _ _ (data (activated ?M ?r ?k ?d)) => exact (shows_activated M r k d _ _ _ _ _ Ed S) end.
Qed.
