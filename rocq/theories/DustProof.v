(** * DustProof: Schlegel-Finkbeiner-Davis maps (C124) *)
From Coq Require Import Reals List Bool String Ascii ZArith Lra Lia Psatz.
From Verif Require Import PyBase DustModel.
Import ListNotations.
Open Scope R_scope.

(** ** Specification *)
(** Lambert zenithal equal-area coordinates (Schlegel, Finkbeiner and Davis, appendix C) of galactic longitude and
    latitude in degrees, on a map of [n] by [n] pixels, [north] being +1 or -1: column and row. *)
Definition deg (x : R) : R := x * (PI / 180).
Definition radius (b : R) : R := sqrt (1 - Rabs (sin (deg b))).
Definition col_of (n : Z) (l b : R) : R := IZR n / 2 * (1 + cos (deg l) * radius b) - 1 / 2.
Definition row_of (north : R) (n : Z) (l b : R) : R := IZR n / 2 * (1 - north * sin (deg l) * radius b) - 1 / 2.
Definition pole (b : R) : R := if Rle_dec 0 b then 1 else -1.

(** ** Sines and pixels *)
Lemma deg_pi x : x * PI / 180 = deg x.
Proof. unfold deg. field. Qed.
Lemma deg_range b : -90 <= b <= 90 -> - (PI / 2) <= deg b <= PI / 2.
Proof. intros H. unfold deg. pose proof PI_RGT_0. nra. Qed.
Lemma sin_north b : 0 <= b <= 90 -> 0 <= sin (deg b).
Proof. intros H. destruct (deg_range b) as (A & B); [lra|]. assert (0 <= deg b) by (unfold deg; pose proof PI_RGT_0; nra). apply sin_ge_0; pose proof PI_RGT_0; lra. Qed.
Lemma sin_south b : -90 <= b <= 0 -> sin (deg b) <= 0.
Proof. intros H. replace b with (- - b) by ring. replace (deg (- - b)) with (- deg (- b)) by (unfold deg; ring). rewrite sin_neg. pose proof (sin_north (- b) ltac:(lra)). lra. Qed.
Lemma abs_sin b : -90 <= b <= 90 -> pole b * sin (deg b) = Rabs (sin (deg b)).
Proof.
  intros H. unfold pole. destruct (Rle_dec 0 b) as [P|P].
  - rewrite Rabs_pos_eq by (apply sin_north; lra). ring.
  - rewrite Rabs_left1 by (apply sin_south; lra). ring.
Qed.
Lemma pixel_spec n l b : -90 <= b <= 90 -> pixel (pole b) n (deg l) (deg b) = (row_of (pole b) n l b, col_of n l b).
Proof. intros H. unfold pixel, row_of, col_of, radius. cbv zeta. rewrite abs_sin by auto. apply (f_equal2 pair); lra. Qed.
Lemma geb0_pole b : geb0 (deg b) = true <-> 0 <= b.
Proof.
  unfold geb0. pose proof PI_RGT_0 as P. destruct (Rle_dec 0 (deg b)) as [H|H]; unfold deg in H; split; intros Q; auto; try discriminate.
  - apply (Rmult_le_reg_r (PI / 180)); lra.
  - exfalso. apply H. apply Rmult_le_pos; lra.
Qed.
(** ** Rounding *)
Lemma floor_bounds x : IZR (Int_part x) <= x < IZR (Int_part x) + 1.
Proof. destruct (base_Int_part x). lra. Qed.
(** to a nearest integer *)
Lemma rne_near x : x - 1 / 2 <= IZR (rne x) <= x + 1 / 2.
Proof.
  unfold rne. pose proof (floor_bounds (x + 1 / 2)) as H. set (k := Int_part (x + 1 / 2)) in *. cbv zeta. destruct (Req_EM_T (IZR k) (x + 1 / 2)) as [E|E]; [destruct (Z.even k)|].
  - lra.
  - rewrite minus_IZR. lra.
  - lra.
Qed.
(** a half goes to the even neighbour *)
Lemma rne_half k : rne (IZR k + 1 / 2) = if Z.even k then k else (k + 1)%Z.
Proof.
  unfold rne. cbv zeta. replace (IZR k + 1 / 2 + 1 / 2) with (IZR (k + 1)) by (rewrite plus_IZR; lra). replace (Int_part (IZR (k + 1))) with (k + 1)%Z.
  - destruct (Req_EM_T (IZR (k + 1)) (IZR (k + 1))) as [_|N]; [|contradiction]. rewrite Z.even_add. change (Z.even 1) with false. destruct (Z.even k); cbn [xorb Bool.eqb]; lia.
  - symmetry. unfold Int_part. rewrite <- (tech_up (IZR (k + 1)) (k + 2)%Z); [lia| |]; rewrite !plus_IZR; lra.
Qed.
Lemma rne_in n x : (0 < n)%Z -> -1 / 2 <= x -> x < IZR n - 1 / 2 -> (0 <= rne x < n)%Z.
Proof.
  intros Hn H1 H2. pose proof (rne_near x) as H. split.
  - destruct (Req_dec x (-1 / 2)) as [E|E].
    + replace x with (IZR (-1) + 1 / 2) by lra. rewrite rne_half. cbn. lia.
    + apply Z.lt_succ_r. apply lt_IZR. unfold Z.succ. rewrite plus_IZR. lra.
  - apply lt_IZR. lra.
Qed.
(** ** The result *)
Section Dust.
Variable open_ : string -> @res dmap.
Variable mc : dmap -> option Z -> R -> R -> R.
Notation get := (get_SFD_dust open_ mc).
(** the value of the map at a position, with and without interpolation *)
Definition found (ip : iarg) (d : dmap) (l b v : R) : Prop :=
  match ip with
  | IBool true => v = mc d None (row_of (pole b) (rows d) l b) (col_of (rows d) l b)
  | IInt k => if (k =? 0)%Z then exists i j, (0 <= i < rows d)%Z /\ (0 <= j < rows d)%Z /\ Rabs (IZR i - row_of (pole b) (rows d) l b) <= 1 / 2 /\ Rabs (IZR j - col_of (rows d) l b) <= 1 / 2 /\ v = px d i j
              else v = mc d (Some k) (row_of (pole b) (rows d) l b) (col_of (rows d) l b)
  | IBool false => exists i j, (0 <= i < rows d)%Z /\ (0 <= j < rows d)%Z /\ Rabs (IZR i - row_of (pole b) (rows d) l b) <= 1 / 2 /\ Rabs (IZR j - col_of (rows d) l b) <= 1 / 2 /\ v = px d i j
  end.
Definition interpolating (ip : iarg) : bool := match ip with IBool b => b | IInt k => negb (k =? 0)%Z end.
Lemma radius_bounds b : 0 <= radius b <= 1.
Proof.
  unfold radius. split; [apply sqrt_pos|]. rewrite <- sqrt_1 at 2. apply sqrt_le_1_alt. pose proof (Rabs_pos (sin (deg b))). lra.
Qed.
Lemma radius_lt b : -90 <= b <= 90 -> b <> 0 -> radius b < 1.
Proof.
  intros H N. unfold radius. rewrite <- sqrt_1 at 2. apply sqrt_lt_1_alt. pose proof (Rabs_pos (sin (deg b))) as P. assert (Q : sin (deg b) <> 0).
  { pose proof PI_RGT_0 as Pi. destruct (deg_range b H) as (A & B). destruct (Rlt_dec 0 b) as [L|L].
    - assert (0 < sin (deg b)); [|lra]. apply sin_gt_0; [unfold deg; nra|lra].
    - assert (0 < sin (deg (- b))). { replace (deg (- b)) with (- deg b) by (unfold deg; ring). apply sin_gt_0; [unfold deg; nra|lra]. }
      replace (deg (- b)) with (- deg b) in H0 by (unfold deg; ring). rewrite sin_neg in H0. lra. }
  pose proof (Rabs_pos_lt _ Q). split; [|lra]. assert (Rabs (sin (deg b)) <= 1); [|lra]. pose proof (SIN_bound (deg b)). apply Rabs_le. lra.
Qed.
(** every position off the galactic plane lies on the map, less than half a pixel from a pixel centre or on its lower edge *)
Lemma on_map n l b : (0 < n)%Z -> -90 <= b <= 90 -> b <> 0 -> (-1 / 2 < row_of (pole b) n l b < IZR n - 1 / 2) /\ (-1 / 2 < col_of n l b < IZR n - 1 / 2).
Proof.
  intros Hn Hb N. pose proof (radius_bounds b) as R1. pose proof (radius_lt b Hb N) as R2. pose proof (IZR_lt _ _ Hn) as Hz. pose proof (SIN_bound (deg l)) as S1. pose proof (COS_bound (deg l)) as C1.
  assert (T : forall t, -1 <= t <= 1 -> -1 < t * radius b < 1) by (intros t Ht; nra).
  assert (P : pole b * sin (deg l) = sin (deg l) \/ pole b * sin (deg l) = - sin (deg l)) by (unfold pole; destruct (Rle_dec 0 b); [left|right]; ring).
  unfold row_of, col_of. pose proof (T (cos (deg l)) C1) as Tc. assert (Ts : -1 < pole b * sin (deg l) * radius b < 1) by (apply T; destruct P as [-> | ->]; lra). nra.
Qed.
Lemma value_found ip d l b : rows d = cols d -> (0 < rows d)%Z -> -90 <= b <= 90 -> interpolating ip = true \/ b <> 0 -> exists v, value mc ip (pole b) d (deg l) (deg b) = Ok v /\ found ip d l b v.
Proof.
  intros Hs Hp Hb Hi. unfold value. rewrite pixel_spec by auto.
  assert (K : b <> 0 -> exists v, at_ d (rne (row_of (pole b) (rows d) l b)) (rne (col_of (rows d) l b)) = Ok v /\ exists i j, (0 <= i < rows d)%Z /\ (0 <= j < rows d)%Z /\ Rabs (IZR i - row_of (pole b) (rows d) l b) <= 1 / 2 /\ Rabs (IZR j - col_of (rows d) l b) <= 1 / 2 /\ v = px d i j).
  { intros N. destruct (on_map (rows d) l b Hp Hb N) as ((A1 & A2) & (B1 & B2)). pose proof (rne_in _ _ Hp (Rlt_le _ _ A1) A2) as I1. pose proof (rne_in _ _ Hp (Rlt_le _ _ B1) B2) as I2.
    pose proof (rne_near (row_of (pole b) (rows d) l b)) as N1. pose proof (rne_near (col_of (rows d) l b)) as N2.
    set (i := rne (row_of (pole b) (rows d) l b)) in *. set (j := rne (col_of (rows d) l b)) in *. unfold at_, index. rewrite <- Hs.
    replace ((0 <=? i)%Z && (i <? rows d)%Z) with true by (symmetry; apply andb_true_iff; split; [apply Z.leb_le|apply Z.ltb_lt]; lia).
    replace ((0 <=? j)%Z && (j <? rows d)%Z) with true by (symmetry; apply andb_true_iff; split; [apply Z.leb_le|apply Z.ltb_lt]; lia).
    eexists. split; [reflexivity|]. exists i, j. split; [exact I1|]. split; [exact I2|]. split; [apply Rabs_le; lra|]. split; [apply Rabs_le; lra|reflexivity]. }
  destruct ip as [[|]|k]; cbn [interpolating] in Hi; cbn [found].
  - eauto.
  - apply K. destruct Hi as [Hi|Hi]; [discriminate|exact Hi].
  - destruct (Z.eqb_spec k 0) as [->|Nk].
    + apply K. destruct Hi as [Hi|Hi]; [discriminate|exact Hi].
    + eauto.
Qed.
(** masks: what the selected values of one hemisphere become *)
Definition side (s : bool) (b : R) : bool := if geb0 (deg b) then s else negb s.
Lemma values_found ip d (s : bool) : forall (ls bs : list R), List.length ls = List.length bs -> rows d = cols d -> (0 < rows d)%Z -> List.Forall (fun b => -90 <= b <= 90) bs -> List.Forall (fun b => interpolating ip = true \/ b <> 0) bs ->
  exists v, values mc ip (if s then 1 else -1) d (map deg ls) (map deg bs) (map (fun b => side s b) bs) = Ok v /\
    List.Forall2 (fun p w => found ip d (fst p) (snd p) w) (filter (fun p => side s (snd p)) (combine ls bs)) v.
Proof.
  intros ls. induction ls as [|l ls IH]; intros [|b bs] E Hs Hp Fb Fi; cbn [List.length] in E; try discriminate.
  - exists []. split; [reflexivity|constructor].
  - inversion Fb; subst. inversion Fi; subst. destruct (IH bs ltac:(lia) Hs Hp) as (v & Ev & Fv); auto. unfold values in *. cbn [map combine sel filter]. change (snd (l, b)) with b.
    destruct (side s b) eqn:Eb.
    + cbn [combine mapr fst snd]. assert (Ep : (if s then 1 else -1) = pole b).
      { unfold side in Eb. unfold pole. destruct (geb0 (deg b)) eqn:Eg; destruct s; try discriminate; destruct (Rle_dec 0 b) as [L|L]; auto.
        - apply geb0_pole in Eg. contradiction.
        - apply geb0_pole in L. congruence. }
      destruct (value_found ip d l b Hs Hp) as (w & Ew & Fw); auto. rewrite Ep in *. rewrite Ew, Ev. eexists. split; [reflexivity|]. constructor; auto.
    + exists v. split; auto.
Qed.
(** recombination of the two hemispheres *)
Lemma put_length m : forall v acc, List.length (put m v acc) = List.length acc.
Proof. induction m as [|b m IH]; intros v [|a acc]; cbn [put]; auto. destruct b; [destruct v as [|x v]|]; cbn [List.length]; auto. Qed.
Lemma recombine (P : bool -> R * R -> R -> Prop) (pos : list (R * R)) (south : R * R -> bool) : forall v1 v2 acc, List.length acc = List.length pos ->
  List.Forall2 (P true) (filter (fun p => negb (south p)) pos) v1 -> List.Forall2 (P false) (filter south pos) v2 ->
  List.Forall2 (fun p w => P (negb (south p)) p w) pos (put (map south pos) v2 (put (map (fun p => negb (south p)) pos) v1 acc)).
Proof.
  induction pos as [|p pos IH]; intros v1 v2 acc L H1 H2; destruct acc as [|a acc]; cbn [List.length] in L; try discriminate.
  - constructor.
  - cbn [filter] in H1, H2. cbn [map]. destruct (south p) eqn:Ep; cbn [negb] in *.
    + inversion H2 as [|? x ? v2' Hx Hr]; subst. cbn [put]. constructor; [rewrite Ep; exact Hx|]. apply IH; auto.
    + inversion H1 as [|? x ? v1' Hx Hr]; subst. cbn [put]. constructor; [rewrite Ep; exact Hx|]. apply IH; auto.
Qed.
Definition maps_ok (s : string) (d1 d2 : dmap) : Prop :=
  exists f1 f2, fmt (dustmapfn s) "ngp" = Some f1 /\ fmt (dustmapfn s) "sgp" = Some f2 /\ open_ f1 = Ok d1 /\ open_ f2 = Ok d2 /\ rows d1 = cols d1 /\ rows d2 = cols d2 /\ (0 < rows d1)%Z /\ (0 < rows d2)%Z.
Definition allowed (ip : iarg) (b : R) : Prop := -90 <= b <= 90 /\ (interpolating ip = true \/ b <> 0).
Lemma radians_deg l : radians l = map deg l.
Proof. unfold radians. apply map_ext. intros. apply deg_pi. Qed.
Lemma both ip s d1 d2 ls bs : maps_ok s d1 d2 -> List.length ls = List.length bs -> List.Forall (allowed ip) bs ->
  exists v1 v2, values mc ip 1 d1 (map deg ls) (map deg bs) (map geb0 (map deg bs)) = Ok v1 /\ values mc ip (-1) d2 (map deg ls) (map deg bs) (map negb (map geb0 (map deg bs))) = Ok v2 /\
    List.Forall2 (fun p w => found ip d1 (fst p) (snd p) w) (filter (fun p => negb (negb (geb0 (deg (snd p))))) (combine ls bs)) v1 /\
    List.Forall2 (fun p w => found ip d2 (fst p) (snd p) w) (filter (fun p => negb (geb0 (deg (snd p)))) (combine ls bs)) v2.
Proof.
  intros (f1 & f2 & _ & _ & _ & _ & Q1 & Q2 & P1 & P2) L F. assert (Fb : List.Forall (fun b => -90 <= b <= 90) bs) by (eapply List.Forall_impl; [|exact F]; intros a Ha; apply Ha).
  assert (Fi : List.Forall (fun b => interpolating ip = true \/ b <> 0) bs) by (eapply List.Forall_impl; [|exact F]; intros a Ha; apply Ha).
  destruct (values_found ip d1 true ls bs L Q1 P1 Fb Fi) as (v1 & E1 & F1). destruct (values_found ip d2 false ls bs L Q2 P2 Fb Fi) as (v2 & E2 & F2). exists v1, v2.
  assert (M1 : map (fun b => side true b) bs = map geb0 (map deg bs)). { rewrite map_map. apply map_ext. intros b. unfold side. now destruct (geb0 (deg b)). }
  assert (M2 : map (fun b => side false b) bs = map negb (map geb0 (map deg bs))). { rewrite !map_map. apply map_ext. intros b. unfold side. now destruct (geb0 (deg b)). }
  rewrite M1 in E1. rewrite M2 in E2. split; [exact E1|]. split; [exact E2|].
  split; [erewrite filter_ext; [exact F1|]|erewrite filter_ext; [exact F2|]]; intros p; cbn beta; unfold side; now destruct (geb0 (deg (snd p))).
Qed.
Lemma combine_snd (ls bs : list R) : List.length ls = List.length bs -> map snd (combine ls bs) = bs.
Proof. revert bs. induction ls as [|l ls IH]; intros [|b bs] E; cbn [List.length] in E; try discriminate; [reflexivity|]. cbn [combine map snd]. now rewrite IH by lia. Qed.
(** Sequences of positions: one value per position, in order, each that of the northern map for latitude >= 0 and of the
    southern map below it, at the position's own pixel; whatever the mixture of hemispheres. *)
Theorem C124_sequence : forall s ip d1 d2 ls bs junk, maps_ok s d1 d2 -> List.length ls = List.length bs -> List.Forall (allowed ip) bs ->
  exists vs, get (Arr ls) (Arr bs) (DName s) ip junk = Ok (Many vs) /\ List.Forall2 (fun p v => found ip (if Rle_dec 0 (snd p) then d1 else d2) (fst p) (snd p) v) (combine ls bs) vs.
Proof.
  intros s ip d1 d2 ls bs junk M L F. destruct (both ip s d1 d2 ls bs M L F) as (v1 & v2 & E1 & E2 & F1 & F2). destruct M as (f1 & f2 & Hf1 & Hf2 & O1 & O2 & Q1 & Q2 & P1 & P2).
  unfold get_SFD_dust. cbv zeta. cbn [as_list]. rewrite !radians_deg, !map_length, L, Nat.eqb_refl. cbn [negb]. rewrite Hf1, Hf2. unfold load. rewrite O1, O2, Q1, Q2, !Z.eqb_refl. cbn [is_num orb]. rewrite E1, E2. eexists. split; [reflexivity|].
  pose proof (recombine (fun n p w => found ip (if n then d1 else d2) (fst p) (snd p) w) (combine ls bs) (fun p => negb (geb0 (deg (snd p)))) v1 v2 (map (fun _ => junk) (map deg ls))) as K.
  assert (X1 : map (fun p : R * R => negb (geb0 (deg (snd p)))) (combine ls bs) = map negb (map geb0 (map deg bs))). { rewrite <- (combine_snd ls bs L) at 2. now rewrite !map_map. }
  assert (X2 : map (fun p : R * R => negb (negb (geb0 (deg (snd p))))) (combine ls bs) = map geb0 (map deg bs)). { rewrite <- (combine_snd ls bs L) at 2. rewrite !map_map. apply map_ext. intros. apply negb_involutive. }
  rewrite X1, X2 in K. assert (Lc : List.length (map (fun _ : R => junk) (map deg ls)) = List.length (combine ls bs)) by (rewrite !map_length, combine_length; lia).
  specialize (K Lc F1 F2). clear - K. induction K as [|p w ps ws H K IH]; constructor; auto. rewrite negb_involutive in H.
  destruct (Rle_dec 0 (snd p)) as [Z|Z]; [rewrite (proj2 (geb0_pole _) Z) in H; exact H|]. destruct (geb0 (deg (snd p))) eqn:E; [apply geb0_pole in E; contradiction|exact H].
Qed.
(** One position, as two numbers or as a number and a sequence of one. *)
Theorem C124_single : forall s ip d1 d2 l b lc bc junk, maps_ok s d1 d2 -> allowed ip b -> as_list lc = [l] -> as_list bc = [b] -> is_num lc = true \/ is_num bc = true ->
  exists v, get lc bc (DName s) ip junk = Ok (One v) /\ found ip (if Rle_dec 0 b then d1 else d2) l b v.
Proof.
  intros s ip d1 d2 l b lc bc junk M A El Eb N. destruct (both ip s d1 d2 [l] [b] M eq_refl) as (v1 & v2 & E1 & E2 & F1 & F2); [constructor; [exact A|constructor]|]. destruct M as (f1 & f2 & Hf1 & Hf2 & O1 & O2 & Q1 & Q2 & P1 & P2).
  unfold get_SFD_dust. cbv zeta. rewrite El, Eb, !radians_deg, !map_length. cbn [List.length Nat.eqb negb]. rewrite Hf1, Hf2. unfold load. rewrite O1, O2, Q1, Q2, !Z.eqb_refl. rewrite E1, E2. replace (is_num lc || is_num bc) with true by (destruct N as [-> | ->]; [reflexivity|now rewrite orb_true_r]).
  cbn [combine filter fst snd] in F1, F2. rewrite negb_involutive in F1. destruct (geb0 (deg b)) eqn:G; cbn [negb] in F1, F2.
  - inversion F1 as [|? v ? ? Hv Hr]; subst. inversion Hr; subst. inversion F2; subst. exists v. split; [reflexivity|]. apply geb0_pole in G. destruct (Rle_dec 0 b); [exact Hv|contradiction].
  - inversion F1; subst. inversion F2 as [|? v ? ? Hv Hr]; subst. exists v. split; [reflexivity|]. destruct (Rle_dec 0 b) as [Z|Z]; [apply geb0_pole in Z; congruence|exact Hv].
Qed.
(** Different numbers of longitudes and latitudes are rejected before a file is opened. *)
Theorem C124_lengths : forall lc bc s ip junk, List.length (as_list lc) <> List.length (as_list bc) -> get lc bc (DName s) ip junk = Raise ValueError.
Proof.
  intros lc bc s ip junk N. unfold get_SFD_dust. cbv zeta. unfold radians. rewrite !map_length. destruct (Nat.eqb_spec (List.length (as_list lc)) (List.length (as_list bc))); [contradiction|reflexivity].
Qed.
(** The names of the maps, in any case. *)
Theorem C124_names : forall s, In (low s) ["ebv"; "eb-v"; "e(b-v)"]%string -> dustmapfn s = "SFD_dust_4096_%s.fits"%string.
Proof. intros s H. unfold dustmapfn. cbv zeta. destruct H as [<- | [<- | [<- | []]]]; reflexivity. Qed.
(** Refuted: with a file name without %s no position ever gives a value. *)
Theorem C124_single_file_refuted : forall lc bc s ip junk, fmt (dustmapfn s) "ngp" = None -> exists x, get lc bc (DName s) ip junk = Raise x \/ get lc bc (DName s) ip junk = OutOfFuel.
Proof.
  intros lc bc s ip junk H. unfold get_SFD_dust. cbv zeta. rewrite H. destruct (negb _); [eexists; left; reflexivity|]. destruct (load open_ (dustmapfn s)) as [d|x|]; [|eauto|exists ValueError; auto]. destruct (_ || _); eauto.
Qed.
Theorem C124_single_file_name_refuted : forall d ip junk, open_ "SFD_dust_4096_ngp.fits" = Ok d -> rows d = cols d -> get (Num 10) (Num 45) (DName "SFD_dust_4096_ngp.fits") ip junk = Raise NameError.
Proof. intros d ip junk H E. unfold get_SFD_dust. cbv zeta. change (dustmapfn "SFD_dust_4096_ngp.fits") with "SFD_dust_4096_ngp.fits"%string. change (fmt "SFD_dust_4096_ngp.fits" "ngp") with (@None string). cbn iota. unfold load, radians. cbn [as_list map List.length Nat.eqb negb]. rewrite H, E, Z.eqb_refl. reflexivity. Qed.
(** Refuted: without interpolation the point l = 0, b = 0 of a map of an even number of pixels lies outside the map. *)
Theorem C124_plane_refuted : forall s d1 d2 junk, maps_ok s d1 d2 -> Z.even (rows d1) = true -> get (Num 0) (Num 0) (DName s) (IBool false) junk = Raise IndexError.
Proof.
  intros s d1 d2 junk (f1 & f2 & Hf1 & Hf2 & O1 & O2 & Q1 & Q2 & P1 & P2) Ev. unfold get_SFD_dust. cbv zeta. cbn [as_list]. rewrite !radians_deg, !map_length. cbn [List.length Nat.eqb negb]. rewrite Hf1, Hf2. unfold load. rewrite O1, O2, Q1, Q2, !Z.eqb_refl.
  cbn [map]. replace (geb0 (deg 0)) with true by (symmetry; apply geb0_pole; lra). unfold values. cbn [sel combine mapr fst snd]. unfold value, pixel.
  assert (D : deg 0 = 0) by (unfold deg; ring). rewrite !D, sin_0, cos_0. replace (1 - 1 * 0) with 1 by ring. rewrite sqrt_1.
  replace (IZR (rows d1) / 2 * 1 * 1 + IZR (rows d1) / 2 - 0.5) with (IZR (rows d1 - 1) + 1 / 2) by (rewrite minus_IZR; lra).
  replace (- IZR (rows d1) / 2 * 1 * 0 * 1 + IZR (rows d1) / 2 - 0.5) with (IZR (rows d1) / 2 - 0.5) by lra.
  rewrite (rne_half (rows d1 - 1)). rewrite Z.even_sub, Ev. change (Z.even 1) with false. cbn [Bool.eqb]. unfold at_.
  assert (I : (0 <= rne (IZR (rows d1) / 2 - 0.5) < rows d1)%Z) by (pose proof (IZR_lt _ _ P1); apply rne_in; lra || lia).
  set (i := rne (IZR (rows d1) / 2 - 0.5)) in *. unfold index. replace ((0 <=? i)%Z && (i <? rows d1)%Z) with true by (symmetry; apply andb_true_iff; split; [apply Z.leb_le|apply Z.ltb_lt]; lia).
  rewrite <- Q1. replace (rows d1 - 1 + 1)%Z with (rows d1) by lia. replace ((0 <=? rows d1)%Z && (rows d1 <? rows d1)%Z) with false by (symmetry; apply andb_false_iff; right; apply Z.ltb_ge; lia).
  replace ((- rows d1 <=? rows d1)%Z && (rows d1 <? 0)%Z) with false by (symmetry; apply andb_false_iff; right; apply Z.ltb_ge; lia). reflexivity.
Qed.
End Dust.

(** ** The projection *)
(** the distance from the centre of the map depends on the latitude alone, and areas are kept: pixels within it are
    proportional to the solid angle of the cap, 2 pi (1 - |sin b|) *)
Theorem C124_equal_area : forall n l b, -90 <= b <= 90 -> (row_of (pole b) n l b - (IZR n / 2 - 1 / 2)) ^ 2 + (col_of n l b - (IZR n / 2 - 1 / 2)) ^ 2 = (IZR n / 2) ^ 2 * (1 - Rabs (sin (deg b))).
Proof.
  intros n l b Hb. assert (Rr : radius b * radius b = 1 - Rabs (sin (deg b))). { unfold radius. apply sqrt_sqrt. assert (Rabs (sin (deg b)) <= 1); [|lra]. pose proof (SIN_bound (deg b)). apply Rabs_le. lra. }
  rewrite <- Rr. assert (P : pole b * pole b = 1) by (unfold pole; destruct (Rle_dec 0 b); lra). pose proof (sin2_cos2 (deg l)) as S. unfold Rsqr in S. unfold row_of, col_of.
  replace (IZR n / 2 * (1 - pole b * sin (deg l) * radius b) - 1 / 2 - (IZR n / 2 - 1 / 2)) with (- (IZR n / 2) * (pole b * (sin (deg l) * radius b))) by ring.
  replace (IZR n / 2 * (1 + cos (deg l) * radius b) - 1 / 2 - (IZR n / 2 - 1 / 2)) with ((IZR n / 2) * (cos (deg l) * radius b)) by ring.
  transitivity ((IZR n / 2) ^ 2 * (radius b * radius b) * ((pole b * pole b) * (sin (deg l) * sin (deg l)) + cos (deg l) * cos (deg l))); [ring|]. rewrite P. replace (1 * (sin (deg l) * sin (deg l)) + cos (deg l) * cos (deg l)) with 1 by lra. ring.
Qed.
(** Two positions of a hemisphere have the same map coordinates exactly when they are the same direction on the sky. *)
Definition dir (l b : R) : R * R * R := (cos (deg b) * cos (deg l), cos (deg b) * sin (deg l), sin (deg b)).
Lemma dir_from s l b : -90 <= b <= 90 -> s * s = 1 -> s * sin (deg b) = Rabs (sin (deg b)) -> dir l b = (cos (deg l) * radius b * sqrt (2 - radius b * radius b), sin (deg l) * radius b * sqrt (2 - radius b * radius b), s * (1 - radius b * radius b)).
Proof.
  intros Hb Hs Ha. assert (B : 0 <= Rabs (sin (deg b)) <= 1). { split; [apply Rabs_pos|]. pose proof (SIN_bound (deg b)). apply Rabs_le. lra. }
  assert (Rr : radius b * radius b = 1 - Rabs (sin (deg b))) by (unfold radius; apply sqrt_sqrt; lra).
  assert (C : radius b * sqrt (2 - radius b * radius b) = cos (deg b)).
  { rewrite Rr. unfold radius. rewrite <- sqrt_mult by lra. replace ((1 - Rabs (sin (deg b))) * (2 - (1 - Rabs (sin (deg b))))) with (1 - Rabs (sin (deg b)) * Rabs (sin (deg b))) by ring. rewrite <- Ha. replace (1 - s * sin (deg b) * (s * sin (deg b))) with (1 - (s * s) * (sin (deg b) * sin (deg b))) by ring. rewrite Hs.
    pose proof (sin2_cos2 (deg b)) as S. unfold Rsqr in S. replace (1 - 1 * (sin (deg b) * sin (deg b))) with (cos (deg b) * cos (deg b)) by lra. apply sqrt_square. destruct (deg_range b Hb). apply cos_ge_0; lra. }
  unfold dir. rewrite Rr, <- Ha. replace (s * (1 - (1 - s * sin (deg b)))) with ((s * s) * sin (deg b)) by ring. rewrite Hs, Rmult_1_l.
  replace (1 - s * sin (deg b)) with (radius b * radius b) by (rewrite Rr, <- Ha; reflexivity). apply (f_equal2 pair); [apply (f_equal2 pair)|reflexivity].
  - rewrite <- C. ring.
  - rewrite <- C. ring.
Qed.
Theorem C124_projection : forall n l b l' b', (0 < n)%Z -> -90 <= b <= 90 -> -90 <= b' <= 90 -> pole b = pole b' ->
  (row_of (pole b) n l b = row_of (pole b') n l' b' /\ col_of n l b = col_of n l' b' <-> dir l b = dir l' b').
Proof.
  intros n l b l' b' Hn Hb Hb' Hp. pose proof (IZR_lt _ _ Hn) as Zn. assert (P2 : pole b * pole b = 1) by (unfold pole; destruct (Rle_dec 0 b); lra).
  pose proof (dir_from (pole b) l b Hb P2 (abs_sin b Hb)) as D. pose proof (dir_from (pole b) l' b' Hb' P2) as D'. rewrite Hp in D' at 1. specialize (D' (abs_sin b' Hb')).
  pose proof (sin2_cos2 (deg l)) as S. pose proof (sin2_cos2 (deg l')) as S'. unfold Rsqr in S, S'. split.
  - intros (E1 & E2). rewrite <- Hp in E1. unfold row_of, col_of in E1, E2.
    assert (Y : pole b * sin (deg l) * radius b = pole b * sin (deg l') * radius b') by (apply (Rmult_eq_reg_l (IZR n / 2)); lra).
    assert (X : cos (deg l) * radius b = cos (deg l') * radius b') by (apply (Rmult_eq_reg_l (IZR n / 2)); lra).
    assert (Y' : sin (deg l) * radius b = sin (deg l') * radius b'). { replace (sin (deg l) * radius b) with ((pole b * pole b) * (sin (deg l) * radius b)) by (rewrite P2; ring). replace (sin (deg l') * radius b') with ((pole b * pole b) * (sin (deg l') * radius b')) by (rewrite P2; ring). transitivity (pole b * (pole b * sin (deg l) * radius b)); [ring|]. rewrite Y. ring. }
    assert (Q : radius b * radius b = radius b' * radius b').
    { replace (radius b * radius b) with ((sin (deg l) * radius b) * (sin (deg l) * radius b) + (cos (deg l) * radius b) * (cos (deg l) * radius b)) by (transitivity ((radius b * radius b) * (sin (deg l) * sin (deg l) + cos (deg l) * cos (deg l))); [ring|rewrite S; ring]).
      replace (radius b' * radius b') with ((sin (deg l') * radius b') * (sin (deg l') * radius b') + (cos (deg l') * radius b') * (cos (deg l') * radius b')) by (transitivity ((radius b' * radius b') * (sin (deg l') * sin (deg l') + cos (deg l') * cos (deg l'))); [ring|rewrite S'; ring]). now rewrite X, Y'. }
    rewrite D, D', Q, X, Y'. reflexivity.
  - intros E. assert (E3 : sin (deg b) = sin (deg b')) by (unfold dir in E; congruence). assert (Er : radius b = radius b') by (unfold radius; now rewrite E3). rewrite D, D', <- Er in E.
    assert (W : 0 < sqrt (2 - radius b * radius b)). { apply sqrt_lt_R0. pose proof (radius_bounds b). nra. }
    injection E as Ex Ey. apply Rmult_eq_reg_r in Ex; [|lra]. apply Rmult_eq_reg_r in Ey; [|lra]. rewrite <- Hp. unfold row_of, col_of. rewrite <- Er. split.
    + rewrite !Rmult_assoc. now rewrite Ey.
    + now rewrite Ex.
Qed.

(** ** Examples *)
Definition a_map (k : R) : dmap := DMap 2 2 (fun i j => k + IZR (2 * i + j)).
Definition files (s : string) : @res dmap := (if s =? "SFD_dust_4096_ngp.fits" then Ok (a_map 0) else if s =? "SFD_dust_4096_sgp.fits" then Ok (a_map 10) else Raise ValueError)%string.
Example two_maps : maps_ok files "EBV" (a_map 0) (a_map 10).
Proof. exists "SFD_dust_4096_ngp.fits"%string, "SFD_dust_4096_sgp.fits"%string. repeat (split; [first [reflexivity|lia]|]). cbn. lia. Qed.
Example three_positions : exists vs, get_SFD_dust files (fun _ _ _ _ => 0) (Arr [10; 20; 30]) (Arr [50; -40; 60]) (DName "EBV") (IBool false) 99 = Ok (Many vs) /\ List.length vs = 3%nat.
Proof.
  destruct (C124_sequence files (fun _ _ _ _ => 0) "EBV" (IBool false) (a_map 0) (a_map 10) [10; 20; 30] [50; -40; 60] 99 two_maps eq_refl) as (vs & E & F).
  - repeat constructor; try lra; right; lra.
  - exists vs. split; [exact E|]. cbn [combine] in F. inversion F as [|? ? ? r1 _ F1]; subst. inversion F1 as [|? ? ? r2 _ F2]; subst. inversion F2 as [|? ? ? r3 _ F3]; subst. now inversion F3.
Qed.
Example names_format : fmt "SFD_dust_4096_%s.fits" "sgp" = Some "SFD_dust_4096_sgp.fits"%string.
Proof. reflexivity. Qed.
