(** * RectProof: C120 (rectangular ICRS and GCRS coordinates: units, epochs, distances, transforms) *)
From Coq Require Import Reals ZArith Lra Lia Psatz List Bool.
From Verif Require Import PyBase RealTrig AngleModel AngleProofs SphereModel SphereProofs SphereProps RectModel.
Import ListNotations.
Open Scope R_scope.

(** ** Specification *)
(** astronomical units in a parsec *)
Definition K : R := 206264.8062470963551564734.
(** the position in astronomical units of an object with a unit *)
Definition at_au (r : rect) (v : vec) : Prop :=
  match unit_ r with
  | Some (Some Au) => v = pos r
  | Some (Some Pc) => v = scale K (pos r)
  | _ => False
  end.
Definition norm (v : vec) : R := sqrt (vx v * vx v + vy v * vy v + vz v * vz v).
Definition minus (a b : vec) : vec := V (vx a - vx b) (vy a - vy b) (vz a - vz b).
Definition origin : vec := V 0 0 0.
(** a unit that can be used *)
Definition usable (u : option uname) : Prop := u <> Some Other.

Lemma auperpc_K : auperpc = K.
Proof. unfold auperpc, K. lra. Qed.
Lemma K_pos : 0 < K.
Proof. unfold K. lra. Qed.
Lemma vec_ext (u v : vec) : vx u = vx v -> vy u = vy v -> vz u = vz v -> u = v.
Proof. destruct u, v; cbn; intros; subst; reflexivity. Qed.
Lemma norm_dot v : norm v = sqrt (dot v v).
Proof. reflexivity. Qed.
Lemma norm_pos v : v <> origin -> 0 < norm v.
Proof.
  intros N. apply sqrt_lt_R0. destruct v as [x y z]. cbn [vx vy vz]. destruct (Req_EM_T x 0) as [->|]; [destruct (Req_EM_T y 0) as [->|]; [destruct (Req_EM_T z 0) as [->|]|]|]; [exfalso; now apply N| | |]; nra.
Qed.
Lemma norm_scale k v : 0 <= k -> norm (scale k v) = k * norm v.
Proof.
  intros P. unfold norm, scale. cbn [vx vy vz]. replace (k * vx v * (k * vx v) + k * vy v * (k * vy v) + k * vz v * (k * vz v)) with (k * k * (vx v * vx v + vy v * vy v + vz v * vz v)) by ring. rewrite sqrt_mult; [|nra|nra]. now rewrite sqrt_square.
Qed.
Lemma norm_unit la lo : norm (unit_of la lo) = 1.
Proof. rewrite norm_dot, dot_unit. apply sqrt_1. Qed.
Lemma scale_scale a b v : scale a (scale b v) = scale (a * b) v.
Proof. unfold scale. cbn [vx vy vz]. apply vec_ext; cbn [vx vy vz]; ring. Qed.
Lemma scale_1 v : scale 1 v = v.
Proof. apply vec_ext; cbn [scale vx vy vz]; ring. Qed.

(** ** Units *)
Theorem unit_set r v u : at_au r v -> u <> Other -> exists r', setUnit r (Some u) = (r', Ok tt) /\ getUnit r' = Ok (Some u) /\ at_au r' v /\ kind r' = kind r /\ repoch r' = repoch r.
Proof.
  intros A N. pose proof K_pos. destruct r as [k p e [[[| |]|]|]]; unfold at_au in A; cbn [unit_ pos] in A; try contradiction; subst v; destruct u; try congruence; unfold setUnit; cbn [unit_ pos kind repoch]; eexists; (split; [reflexivity|]); repeat split; unfold at_au; cbn [unit_ pos]; trivial; rewrite auperpc_K; apply vec_ext; cbn [scale vx vy vz]; field; lra.
Qed.
Theorem unit_bad r u : getUnit r = Ok u -> setUnit r (Some Other) = (r, Raise ValueError).
Proof. unfold getUnit, setUnit. destruct (unit_ r) as [[[| |]|]|]; try discriminate; reflexivity. Qed.
(** any sequence of assignments of unit names leaves the position *)
Definition units (r : rect) (l : list uname) : rect := fold_left (fun r u => fst (setUnit r (Some u))) l r.
Theorem unit_history r v l : at_au r v -> at_au (units r l) v /\ kind (units r l) = kind r /\ repoch (units r l) = repoch r.
Proof.
  revert r. induction l as [|u l I]; intros r A; [now repeat split|]. cbn [units fold_left]. change (fold_left (fun r u => fst (setUnit r (Some u))) l (fst (setUnit r (Some u)))) with (units (fst (setUnit r (Some u))) l).
  assert (X : at_au (fst (setUnit r (Some u))) v /\ kind (fst (setUnit r (Some u))) = kind r /\ repoch (fst (setUnit r (Some u))) = repoch r).
  { assert (D : u = Other \/ u <> Other) by (destruct u; [right|right|left]; congruence). destruct D as [->|N].
    - assert (exists w, getUnit r = Ok w) as (w & G) by (unfold at_au in A; unfold getUnit; destruct (unit_ r); [eauto|contradiction]). rewrite (unit_bad r w G). now repeat split.
    - destruct (unit_set r v u A N) as (r' & -> & _ & B & C & D). now repeat split. }
  destruct X as (X1 & X2 & X3). destruct (I _ X1) as (Y1 & Y2 & Y3). repeat split; [exact Y1|now rewrite Y2|now rewrite Y3].
Qed.
Theorem unit_forgotten r : exists r', setUnit r None = (r', Ok tt) /\ getUnit r' = Ok None /\ pos r' = pos r /\ kind r' = kind r /\ repoch r' = repoch r.
Proof. eexists. split; [reflexivity|]. now repeat split. Qed.
Theorem unit_first r u : getUnit r = Ok None -> u <> Other -> exists r', setUnit r (Some u) = (r', Ok tt) /\ getUnit r' = Ok (Some u) /\ pos r' = pos r /\ kind r' = kind r /\ repoch r' = repoch r.
Proof. unfold getUnit, setUnit. destruct (unit_ r) as [[u'|]|]; try discriminate. intros _ N. destruct u; try congruence; eexists; (split; [reflexivity|]); now repeat split. Qed.
Theorem unit_new k p e u : usable u -> exists r, newRect k p e u = Ok r /\ getUnit r = Ok u /\ pos r = p /\ kind r = k /\ repoch r = e.
Proof. intros N. unfold newRect, setUnit. destruct u as [[| |]|]; try (now (destruct N; reflexivity)); cbn [unit_ pos kind repoch]; eexists; (split; [reflexivity|]); now repeat split. Qed.
Theorem unit_new_bad k p e : newRect k p e (Some Other) = Raise ValueError.
Proof. reflexivity. Qed.
(** ** Copies, sums and differences have no unit *)
Theorem copy_keeps r : pos (copied r) = pos r /\ repoch (copied r) = repoch r /\ kind (copied r) = kind r.
Proof. now repeat split. Qed.
Theorem copy_unit_refuted r : getUnit (copied r) = Raise AttributeError /\ (forall u, snd (setUnit (copied r) (Some u)) = Raise AttributeError) /\ (pos r <> origin -> toEqu (copied r) = Raise AttributeError) /\ forall earth k, toOther earth k (copied r) = Raise AttributeError.
Proof.
  repeat split. intros N. apply norm_pos in N. unfold toEqu, copied. cbn [pos]. fold (norm (pos r)). destruct (Req_EM_T (norm (pos r)) 0); [lra|]. reflexivity.
Qed.
Theorem sum_position r o : pos (addRect r o) = V (vx (pos r) + vx o) (vy (pos r) + vy o) (vz (pos r) + vz o) /\ pos (subRect r o) = minus (pos r) o /\ pos (subRect (addRect r o) o) = pos r /\ repoch (addRect r o) = repoch r /\ repoch (subRect r o) = repoch r.
Proof. repeat split. apply vec_ext; unfold subRect, addRect; cbn [pos vx vy vz]; ring. Qed.
Theorem sum_unit_refuted r o : getUnit (addRect r o) = Raise AttributeError /\ getUnit (subRect r o) = Raise AttributeError.
Proof. split; reflexivity. Qed.
(** so the sum of two positions, one in au, one in pc, has the sum of the numbers *)
Theorem mixed_sum_refuted : exists a b va vb, at_au a va /\ at_au b vb /\ pos (addRect a (pos b)) = V 2 0 0 /\ va = V 1 0 0 /\ vb = V K 0 0.
Proof. exists (Rect ICRS (V 1 0 0) None (Some (Some Au))), (Rect ICRS (V 1 0 0) None (Some (Some Pc))). eexists _, _. split; [reflexivity|]. split; [reflexivity|]. repeat split; apply vec_ext; unfold addRect; cbn [pos scale vx vy vz]; lra. Qed.
(** ** Epochs *)
Theorem epoch_forgotten now r : setEpoch now r ENone = (Rect (kind r) (pos r) None (unit_ r), Ok tt).
Proof. reflexivity. Qed.
Theorem epoch_first now r a e : repoch r = None -> (a = ENum e \/ a = ENow /\ e = now) -> exists r', setEpoch now r a = (r', Ok tt) /\ repoch r' = Some e /\ pos r' = pos r /\ getUnit r' = getUnit r /\ kind r' = kind r.
Proof. intros H [->|(-> & ->)]; unfold setEpoch; rewrite H; eexists; (split; [reflexivity|]); now repeat split. Qed.
Theorem epoch_icrs now r a e : kind r = ICRS -> (a = ENum e \/ a = ENow /\ e = now) -> exists r', setEpoch now r a = (r', Ok tt) /\ repoch r' = Some e /\ pos r' = pos r /\ getUnit r' = getUnit r /\ kind r' = kind r.
Proof. intros Kd [->|(-> & ->)]; unfold setEpoch, transformToEpoch; rewrite Kd; destruct (repoch r); eexists; (split; [reflexivity|]); now repeat split. Qed.
Theorem epoch_gcrs_refuted now r a e : kind r = GCRS -> repoch r <> None -> (a = ENum e \/ a = ENow) -> setEpoch now r a = (r, Raise TypeError).
Proof. intros Kd N [-> | ->]; unfold setEpoch, transformToEpoch; rewrite Kd; destruct (repoch r); congruence. Qed.
Theorem epochstr_refuted now r : setEpochstr now r (epochstr r) = (r, Raise ValueError).
Proof. reflexivity. Qed.
(** ** Rectangular to angles *)
Lemma asin_sph v : v <> origin -> asin (vz v / norm v) = sphLat v.
Proof.
  intros N. apply norm_pos in N. destruct (sph_spec v) as (E & (A1 & A2) & _). rewrite <- norm_dot in E. assert (Z : vz v = norm v * sin (sphLat v)) by (rewrite E at 1; reflexivity). rewrite Z. replace (norm v * sin (sphLat v) / norm v) with (sin (sphLat v)) by (field; lra). now apply asin_sin.
Qed.
Lemma newCoord_range lo la c : newCoord (R2 0 360) lo la None None = Ok c -> range (long c) = Some (rad 0, rad 360, Some (rad 0)) /\ laterr c = None /\ longerr c = None.
Proof.
  unfold newCoord. destruct (setRange (Ang 0 None) (R2 0 360)) as (lg, [[]|x|]) eqn:E; try discriminate. assert (Rl : range lg = Some (rad 0, rad 360, Some (rad 0))).
  { unfold setRange in E. destruct (Rlt_dec 360 0); [lra|]. destruct (Req_EM_T (360 - 0) 360); [|lra]. unfold applyRange in E. destruct (checkRange _ _) as [v|[]|]; try discriminate; injection E as <-; reflexivity. }
  unfold setLat. match goal with |- context [setRad ?a ?b] => destruct (setRad a b) as (a1, [[]|x|]) end; try discriminate. unfold setLong. cbn [long lat laterr longerr].
  destruct (setRad lg (pymod (rad lo) (2 * PI))) as (a2, [[]|x|]) eqn:E2; try discriminate. intros H. injection H as <-. cbn [long lat laterr longerr]. apply setRad_cases in E2. destruct E2 as [(e & A & _)|(v & _ & -> & _)]; [discriminate|]. now repeat split.
Qed.
Definition long_ok (q : equ) : Prop := 0 <= decval (long (ang2 q)) < 2 * PI.
Definition lat_ok (q : equ) : Prop := - (PI / 2) <= decval (lat (ang2 q)) <= PI / 2.
Lemma newEqu_dir k v e f : v <> origin -> exists c, newEqu k (deg (atan2 (vy v) (vx v))) (deg (asin (vz v / norm v))) e f = Ok (f (Equ k c e None)) /\ scale (norm v) (dir c) = v /\ 0 <= decval (long c) < 2 * PI /\ - (PI / 2) <= decval (lat c) <= PI / 2.
Proof.
  intros N. rewrite (asin_sph v N). fold (sphLong v). destruct (sph_spec v) as (E & (A1 & A2) & B). rewrite <- norm_dot in E.
  destruct (newCoord_spec (R2 0 360) (deg (sphLong v)) (deg (sphLat v)) None None) as (c & Ec & (Rg & La & Lo) & Hs & Hc & k0 & Hl). { right. exists 0. f_equal. lra. }
  rewrite !rad_deg in *. unfold newEqu. rewrite Ec. exists c. split; [reflexivity|]. split; [|split; [|exact La]].
  - rewrite E at 2. f_equal. unfold dir, unit_of. rewrite Hs, Hc, Hl, cos_2kpi, sin_2kpi, Rabs_pos_eq by (apply cos_ge_0; lra). reflexivity.
  - apply newCoord_range in Ec. destruct Ec as (Rl & _). unfold long_in in Lo. rewrite Rl in Lo. unfold rad in Lo. lra.
Qed.
(** [dist q u n]: the distance of angles made from a vector of length [n] with unit [u] *)
Definition dist_of (u : option uname) (n : R) : option (R * R) :=
  match u with
  | Some Pc => Some (n, 0)
  | Some Au => Some (n * (149597887 / 30856802500000), 0)
  | _ => None
  end.
Theorem to_angles r u : pos r <> origin -> getUnit r = Ok u -> usable u -> exists q, toEqu r = Ok q /\ scale (norm (pos r)) (dir (ang2 q)) = pos r /\ long_ok q /\ lat_ok q /\ eepoch q = repoch r /\ ekind q = kind r /\ distancepc q = dist_of u (norm (pos r)).
Proof.
  intros N G U. pose proof (norm_pos _ N) as P. unfold toEqu. cbv zeta. fold (norm (pos r)). destruct (Req_EM_T (norm (pos r)) 0); [lra|]. rewrite G. destruct u as [[| |]|]; [| |destruct U; reflexivity|].
  - destruct (newEqu_dir (kind r) (pos r) (repoch r) (fun q => set_distanceau q (DNum (norm (pos r)))) N) as (c & -> & D & Lo & La). eexists. split; [reflexivity|]. repeat split; try apply Lo; try apply La; [exact D|]. unfold distancepc, set_distanceau, dist_of. cbn [dpc]. f_equal. f_equal. f_equal. unfold pcperau, cmperau, cmperpc. field.
  - destruct (newEqu_dir (kind r) (pos r) (repoch r) (fun q => set_distancepc q (DNum (norm (pos r)))) N) as (c & -> & D & Lo & La). eexists. split; [reflexivity|]. repeat split; try apply Lo; try apply La; exact D.
  - destruct (newEqu_dir (kind r) (pos r) (repoch r) (fun q => q) N) as (c & -> & D & Lo & La). eexists. split; [reflexivity|]. repeat split; try apply Lo; try apply La; exact D.
Qed.
Theorem origin_raises r : pos r = origin -> toEqu r = Raise ZeroDivisionError.
Proof. intros E. unfold toEqu. cbv zeta. rewrite E. cbn [origin vx vy vz]. replace (0 * 0 + 0 * 0 + 0 * 0) with 0 by ring. rewrite sqrt_0. destruct (Req_EM_T 0 0); [reflexivity|lra]. Qed.
(** ** Angles to rectangular *)
Theorem from_angles q : exists r, fromEqu q = Ok r /\ kind r = ekind q /\ repoch r = eepoch q /\
  match distancepc q with
  | None => pos r = dir (ang2 q) /\ getUnit r = Ok None
  | Some (d, _) => pos r = scale d (dir (ang2 q)) /\ getUnit r = Ok (Some Pc)
  end.
Proof.
  unfold fromEqu, distancepc, distanceau. destruct (dpc q) as [(d, e)|]; eexists; (split; [reflexivity|]); repeat split; apply vec_ext; unfold scale, dir, unit_of; cbn [pos vx vy vz]; ring.
Qed.
(** the documentation: in au if less than 1000 au *)
Theorem near_object_refuted k c e d : 0 < d < 1000 -> exists q r, q = set_distanceau (Equ k c e None) (DNum d) /\ fromEqu q = Ok r /\ getUnit r = Ok (Some Pc).
Proof. intros _. eexists _, _. split; [reflexivity|]. split; reflexivity. Qed.
(** ** Distances *)
Theorem distance_au q d : distanceau (set_distanceau q (DNum d)) = Some (d, 0) /\ (forall e, distanceau (set_distanceau q (DPair d e)) = Some (d, e)) /\ distanceau (set_distanceau q DNone) = None.
Proof. unfold distanceau, set_distanceau, pcperau, cmperau, cmperpc. cbn [dpc]. repeat split; intros; f_equal; f_equal; field. Qed.
Theorem distance_pc q d : distancepc (set_distancepc q (DNum d)) = Some (d, 0) /\ (forall e, distancepc (set_distancepc q (DPair d e)) = Some (d, e)) /\ distancepc (set_distancepc q DNone) = None.
Proof. repeat split. Qed.
(** a parsec is [30856802500000/149597887] au here, and [K] in the units of rectangular coordinates *)
Theorem parsec_refuted q : exists a, distanceau (set_distancepc q (DNum 1)) = Some (a, 0) /\ a <> K /\ Rabs (a / K - 1) < / 1000000.
Proof.
  unfold distanceau, set_distancepc. cbn [dpc]. eexists. split; [f_equal; f_equal; apply Rmult_0_l|]. unfold cmperpc, cmperau, K. split; [lra|]. apply Rabs_def1; lra.
Qed.
(** ** Round trips *)
Theorem rect_round_trip r : pos r <> origin -> getUnit r = Ok (Some Pc) -> exists q, toEqu r = Ok q /\ fromEqu q = Ok r.
Proof.
  intros N G. destruct (to_angles r (Some Pc) N G ltac:(discriminate)) as (q & T & D & _ & _ & E & Kd & Dp). exists q. split; [exact T|]. destruct (from_angles q) as (r' & F & K' & E' & X). rewrite Dp in X. cbn [dist_of] in X. destruct X as (P & G'). rewrite F. f_equal. rewrite D in P. unfold getUnit in G, G'. destruct r as [k p e u], r' as [k' p' e' u']. cbn [kind pos repoch unit_] in *. destruct u as [u|]; [|discriminate]. destruct u' as [u'|]; [|discriminate]. congruence.
Qed.
Theorem rect_round_trip_direction r : pos r <> origin -> getUnit r = Ok None -> exists q r', toEqu r = Ok q /\ fromEqu q = Ok r' /\ scale (norm (pos r)) (pos r') = pos r /\ norm (pos r') = 1 /\ getUnit r' = Ok None /\ repoch r' = repoch r /\ kind r' = kind r.
Proof.
  intros N G. destruct (to_angles r None N G ltac:(discriminate)) as (q & T & D & _ & _ & E & Kd & Dp). destruct (from_angles q) as (r' & F & K' & E' & X). rewrite Dp in X. cbn [dist_of] in X. destruct X as (P & G'). exists q, r'. split; [exact T|]. split; [exact F|]. rewrite P. repeat split; [exact D|apply norm_unit|exact G'|congruence|congruence].
Qed.
(** a position in au comes back in pc, and not at the same place (by less than a millionth) *)
Theorem rect_round_trip_au_refuted r v : pos r <> origin -> getUnit r = Ok (Some Au) -> at_au r v -> exists q r' v' k, toEqu r = Ok q /\ fromEqu q = Ok r' /\ getUnit r' = Ok (Some Pc) /\ at_au r' v' /\ v' = scale k v /\ k <> 1 /\ Rabs (k - 1) < / 1000000.
Proof.
  intros N G A. destruct (to_angles r (Some Au) N G ltac:(discriminate)) as (q & T & D & _ & _ & E & Kd & Dp). destruct (from_angles q) as (r' & F & K' & E' & X). rewrite Dp in X. cbn [dist_of] in X. destruct X as (P & G').
  exists q, r', (scale K (pos r')), (K * (149597887 / 30856802500000)). split; [exact T|]. split; [exact F|]. split; [exact G'|]. assert (Vp : v = pos r). { unfold at_au in A. unfold getUnit in G. destruct (unit_ r) as [[[| |]|]|]; congruence. }
  split; [unfold at_au; unfold getUnit in G'; destruct (unit_ r') as [[[| |]|]|]; congruence|]. split; [|unfold K; split; [lra|apply Rabs_def1; lra]].
  rewrite P, Vp. rewrite <- D at 2. rewrite !scale_scale. f_equal. ring.
Qed.
(** angles to rectangular and back: the same angles away from the poles, the error of the distance is lost *)
Lemma dir_inj c c' : - (PI / 2) < decval (lat c) < PI / 2 -> - (PI / 2) <= decval (lat c') <= PI / 2 -> 0 <= decval (long c) < 2 * PI -> 0 <= decval (long c') < 2 * PI -> dir c = dir c' -> decval (lat c) = decval (lat c') /\ decval (long c) = decval (long c').
Proof.
  intros L L' G G' E. unfold dir, unit_of in E. injection E as E1 E2 E3. assert (La : decval (lat c) = decval (lat c')) by (rewrite <- (asin_sin (decval (lat c))), <- (asin_sin (decval (lat c'))), E3 by lra; reflexivity). split; [exact La|]. rewrite <- La in *. assert (0 < cos (decval (lat c))) by (apply cos_gt_0; lra). apply Rmult_eq_reg_l in E1; [|lra]. apply Rmult_eq_reg_l in E2; [|lra].
  destruct (sincos_eq _ _ E2 E1) as (k & Ek). assert (k = 0%Z); [|subst k; lra]. pose proof PI_RGT_0. assert (IZR k < 1) by nra. assert (-1 < IZR k) by nra. apply lt_IZR in H1. apply (lt_IZR (-1)) in H2. lia.
Qed.
Theorem angles_round_trip q : - (PI / 2) < decval (lat (ang2 q)) < PI / 2 -> long_ok q -> (forall d e, distancepc q = Some (d, e) -> 0 < d) -> exists r q', fromEqu q = Ok r /\ toEqu r = Ok q' /\ decval (lat (ang2 q')) = decval (lat (ang2 q)) /\ decval (long (ang2 q')) = decval (long (ang2 q)) /\ eepoch q' = eepoch q /\ ekind q' = ekind q /\
  distancepc q' = match distancepc q with None => None | Some (d, _) => Some (d, 0) end.
Proof.
  intros L G Dp. destruct (from_angles q) as (r & F & Kr & Er & X). assert (Y : exists u n, pos r = scale n (dir (ang2 q)) /\ getUnit r = Ok u /\ 0 < n /\ usable u /\ dist_of u n = match distancepc q with None => None | Some (d, _) => Some (d, 0) end).
  { destruct (distancepc q) as [(d, e)|]; [exists (Some Pc), d|exists None, 1]; destruct X as (X1 & X2); repeat split; trivial; try discriminate; [now apply (Dp d e)|now rewrite scale_1|lra]. }
  destruct Y as (u & n & P & U & Pn & Us & Dn). assert (Nn : norm (pos r) = n) by (rewrite P, norm_scale by lra; unfold dir; rewrite norm_unit; ring). assert (N : pos r <> origin) by (intros O; rewrite O in Nn; unfold norm, origin in Nn; cbn [vx vy vz] in Nn; replace (0 * 0 + 0 * 0 + 0 * 0) with 0 in Nn by ring; rewrite sqrt_0 in Nn; lra).
  destruct (to_angles r u N U Us) as (q' & T & D & Lo & La & E & Kd & Dq). exists r, q'. split; [exact F|]. split; [exact T|]. rewrite Nn in *. rewrite P in D.
  assert (Dd : dir (ang2 q) = dir (ang2 q')). { apply (f_equal (scale (/ n))) in D. rewrite !scale_scale in D. rewrite Rinv_l, !scale_1 in D by lra. now symmetry. }
  destruct (dir_inj _ _ L La G Lo Dd) as (A & B). repeat split; try congruence.
Qed.
Theorem distance_error_refuted k c e d de : - (PI / 2) < decval (lat c) < PI / 2 -> 0 <= decval (long c) < 2 * PI -> 0 < d -> de <> 0 -> exists r q', fromEqu (Equ k c e (Some (d, de))) = Ok r /\ toEqu r = Ok q' /\ distancepc q' <> distancepc (Equ k c e (Some (d, de))).
Proof.
  intros L G D N. destruct (angles_round_trip (Equ k c e (Some (d, de)))) as (r & q' & F & T & _ & _ & _ & _ & Dq); trivial; [intros d' e' X; injection X; intros; subst; exact D|]. exists r, q'. repeat split; trivial. rewrite Dq. cbn [distancepc dpc]. congruence.
Qed.
(** ** Between barycentric and geocentric: the position of the Earth is subtracted, whatever the unit *)
Theorem shift_no_epoch earth k r u : getUnit r = Ok u -> repoch r = None -> toOther earth k r = Raise ValueError.
Proof. intros G E. unfold toOther. now rewrite G, E. Qed.
Theorem shift_no_unit earth k r e : getUnit r = Ok None -> repoch r = Some e -> exists r', toOther earth k r = Ok r' /\ pos r' = pos r /\ getUnit r' = Ok None /\ repoch r' = Some e /\ kind r' = k.
Proof. intros G E. unfold toOther. rewrite G, E. destruct (unit_new k (pos r) (Some e) None ltac:(discriminate)) as (r' & -> & A & B & C & D). now exists r'. Qed.
Theorem shift earth k r v e : at_au r v -> repoch r = Some e -> exists r', toOther earth k r = Ok r' /\ at_au r' (minus v (earth e)) /\ getUnit r' = getUnit r /\ repoch r' = Some e /\ kind r' = k.
Proof.
  intros A E. pose proof K_pos. destruct r as [k0 p e0 [[[| |]|]|]]; unfold at_au in A; cbn [unit_ pos] in A; try contradiction; cbn [repoch] in E; subst e0 v; unfold toOther, getUnit; cbn [unit_ repoch pos]; (eexists; split; [reflexivity|]); repeat split; unfold at_au; cbn [unit_ pos]; apply vec_ext; cbn [scale minus vx vy vz]; rewrite ?auperpc_K; try ring; field; lra.
Qed.
(** there and back: the Earth is subtracted twice *)
Theorem there_and_back_refuted earth k r v e : at_au r v -> repoch r = Some e -> exists r1 r2, toOther earth k r = Ok r1 /\ toOther earth (kind r) r1 = Ok r2 /\ at_au r2 (minus v (scale 2 (earth e))) /\ kind r2 = kind r.
Proof.
  intros A E. destruct (shift earth k r v e A E) as (r1 & T1 & A1 & _ & E1 & _). destruct (shift earth (kind r) r1 _ e A1 E1) as (r2 & T2 & A2 & _ & _ & K2). exists r1, r2. repeat split; trivial. replace (minus v (scale 2 (earth e))) with (minus (minus v (earth e)) (earth e)); [exact A2|]. apply vec_ext; cbn [minus scale vx vy vz]; ring.
Qed.
(** ** ICRSCoordinates and GCRSCoordinates *)
Theorem convert_no_epoch earth k q : eepoch q = None -> convert earth k q = Raise ValueError.
Proof.
  intros E. unfold convert. destruct (from_angles q) as (r & -> & _ & Er & X). assert (exists u, getUnit r = Ok u) as (u & G) by (destruct (distancepc q) as [(d, e)|]; destruct X; eauto). now rewrite (shift_no_epoch earth k r u G) by congruence.
Qed.
Theorem convert_far earth k q e : eepoch q = Some e -> distancepc q = None -> exists q', convert earth k q = Ok q' /\ dir (ang2 q') = dir (ang2 q) /\ distancepc q' = None /\ eepoch q' = Some e /\ ekind q' = k /\ long_ok q' /\ lat_ok q'.
Proof.
  intros E D. unfold convert. destruct (from_angles q) as (r & -> & _ & Er & X). rewrite D in X. destruct X as (P & G). rewrite E in Er. destruct (shift_no_unit earth k r e G Er) as (r' & -> & P' & G' & E' & K').
  assert (Nn : norm (pos r') = 1) by (rewrite P', P; apply norm_unit). assert (N : pos r' <> origin) by (intros O; rewrite O in Nn; unfold norm, origin in Nn; cbn [vx vy vz] in Nn; replace (0 * 0 + 0 * 0 + 0 * 0) with 0 in Nn by ring; rewrite sqrt_0 in Nn; lra).
  destruct (to_angles r' None N G' ltac:(discriminate)) as (q' & -> & Dq & Lo & La & Eq & Kq & Dpq). unfold distancepc in D, Dpq. rewrite D. eexists. split; [reflexivity|]. unfold distancepc. cbn [ang2 dpc eepoch ekind]. rewrite Nn, scale_1 in Dq. split; [congruence|]. split; [exact Dpq|]. split; [exact E|]. split; [reflexivity|]. split; [exact Lo|exact La].
Qed.
Lemma at_pc r p : getUnit r = Ok (Some Pc) -> pos r = p -> at_au r (scale K p).
Proof. unfold getUnit, at_au. destruct (unit_ r) as [[[| |]|]|]; congruence. Qed.
(** with a distance: the direction of the position less that of the Earth; the distance is the one before *)
Theorem convert_near earth k q e d de : eepoch q = Some e -> distancepc q = Some (d, de) -> let v := minus (scale (K * d) (dir (ang2 q))) (earth e) in v <> origin ->
  exists q', convert earth k q = Ok q' /\ scale (norm v) (dir (ang2 q')) = v /\ distancepc q' = Some (d, de) /\ eepoch q' = Some e /\ ekind q' = k /\ long_ok q' /\ lat_ok q'.
Proof.
  intros E D v N. pose proof K_pos as Kp. unfold convert. destruct (from_angles q) as (r & -> & _ & Er & X). rewrite D in X. destruct X as (P & G). rewrite E in Er. pose proof (at_pc r _ G P) as A. rewrite scale_scale in A. destruct (shift earth k r _ e A Er) as (r' & -> & A' & G' & E' & K'). fold v in A'. rewrite G in G'.
  assert (P' : v = scale K (pos r')) by (unfold at_au in A'; unfold getUnit in G'; destruct (unit_ r') as [[[| |]|]|]; congruence). assert (N' : pos r' <> origin) by (intros O; apply N; rewrite P', O; apply vec_ext; cbn [scale origin vx vy vz]; ring).
  destruct (to_angles r' (Some Pc) N' G' ltac:(discriminate)) as (q' & -> & Dq & Lo & La & Eq & Kq & Dpq). unfold distancepc in D. rewrite D. eexists. split; [reflexivity|]. unfold distancepc. cbn [ang2 dpc eepoch ekind]. split; [rewrite P', norm_scale, <- scale_scale by lra; now rewrite Dq|]. split; [reflexivity|]. split; [exact E|]. split; [reflexivity|]. split; [exact Lo|exact La].
Qed.
(** so the distance is not that of the new position *)
Theorem convert_distance_refuted : exists earth q q' e d, convert earth GCRS q = Ok q' /\ eepoch q = Some e /\ distancepc q = Some (d, 0) /\ distancepc q' = Some (d, 0) /\ norm (minus (scale (K * d) (dir (ang2 q))) (earth e)) <> K * d.
Proof.
  pose proof K_pos as Kp. set (c := C (Ang 0 latrange) (Ang 0 None) None None). set (q := Equ ICRS c (Some 2000) (Some (1, 0))). assert (Dc : dir c = V 1 0 0) by (unfold dir, c, unit_of; cbn [lat long decval]; rewrite cos_0, sin_0; apply vec_ext; cbn [vx vy vz]; ring).
  assert (Vv : minus (scale (K * 1) (dir c)) (V (-1) 0 0) = V (K + 1) 0 0) by (rewrite Dc; apply vec_ext; cbn [minus scale vx vy vz]; ring).
  destruct (convert_near (fun _ => V (-1) 0 0) GCRS q 2000 1 0 eq_refl eq_refl) as (q' & Cv & _ & Dq & _). { unfold q. cbn [ang2]. rewrite Vv. intros O. injection O. lra. }
  exists (fun _ => V (-1) 0 0), q, q', 2000, 1. split; [exact Cv|]. split; [reflexivity|]. split; [reflexivity|]. split; [exact Dq|]. unfold q. cbn [ang2]. rewrite Vv. unfold norm. cbn [vx vy vz]. replace ((K + 1) * (K + 1) + 0 * 0 + 0 * 0) with ((K + 1) * (K + 1)) by ring. rewrite sqrt_square by lra. lra.
Qed.
(** GCRSCoordinates.transformToEpoch *)
Theorem gcrs_epoch_far earth q e e' : eepoch q = Some e -> distancepc q = None -> exists q', gcrs_to_epoch earth q e' = (q', Ok tt) /\ dir (ang2 q') = dir (ang2 q) /\ eepoch q' = Some e' /\ distancepc q' = None /\ ekind q' = GCRS.
Proof.
  intros E D. unfold gcrs_to_epoch. destruct (convert_far earth ICRS q e E D) as (c1 & -> & D1 & N1 & _). destruct (convert_far earth GCRS (Equ ICRS (ang2 c1) (Some e') (dpc c1)) e' eq_refl N1) as (c2 & -> & D2 & N2 & _). eexists. split; [reflexivity|]. repeat split; [cbn [ang2] in *; congruence|exact N2].
Qed.
Theorem gcrs_no_epoch earth q e' : eepoch q = None -> gcrs_to_epoch earth q e' = (q, Raise ValueError).
Proof. intros E. unfold gcrs_to_epoch. now rewrite convert_no_epoch. Qed.
(** a near object is moved by the transformation to the epoch it has *)
Theorem gcrs_same_epoch_refuted : exists earth q q' e, eepoch q = Some e /\ ekind q = GCRS /\ gcrs_to_epoch earth q e = (q', Ok tt) /\ dir (ang2 q') <> dir (ang2 q).
Proof.
  pose proof K_pos as Kp. set (earth := fun _ : R => V 1 0 0). set (c := C (Ang 0 latrange) (Ang (PI / 2) None) None None). set (q := Equ GCRS c (Some 2000) (Some (1, 0))). assert (Dc : dir c = V 0 1 0) by (unfold dir, c, unit_of; cbn [lat long decval]; rewrite cos_0, sin_0, cos_PI2, sin_PI2; apply vec_ext; cbn [vx vy vz]; ring).
  assert (V1 : minus (scale (K * 1) (dir (ang2 q))) (earth 2000) = V (-1) K 0) by (unfold q, earth; cbn [ang2]; rewrite Dc; apply vec_ext; cbn [minus scale vx vy vz]; ring).
  destruct (convert_near earth ICRS q 2000 1 0 eq_refl eq_refl) as (c1 & C1 & D1 & P1 & E1 & _). { rewrite V1. intros O. injection O. lra. }
  rewrite V1 in D1. assert (Np : 0 < norm (V (-1) K 0)) by (apply norm_pos; intros O; injection O; lra). set (n := norm (V (-1) K 0)) in *.
  assert (Dx : vx (dir (ang2 c1)) < 0). { apply (f_equal vx) in D1. cbn [scale vx] in D1. nra. }
  set (q1 := Equ ICRS (ang2 c1) (Some 2000) (dpc c1)). assert (V2x : vx (minus (scale (K * 1) (dir (ang2 q1))) (earth 2000)) < 0) by (unfold q1, earth; cbn [ang2 minus scale vx]; nra).
  destruct (convert_near earth GCRS q1 2000 1 0 eq_refl P1) as (c2 & C2 & D2 & P2 & E2 & _). { intros O. rewrite O in V2x. cbn [origin vx] in V2x. lra. }
  exists earth, q, (Equ GCRS (ang2 c2) (Some 2000) (dpc c2)), 2000. split; [reflexivity|]. split; [reflexivity|]. split; [unfold gcrs_to_epoch; rewrite C1; fold q1; rewrite C2; reflexivity|]. cbn [ang2]. unfold q at 1. cbn [ang2]. rewrite Dc. intros X. rewrite X in D2. apply (f_equal vx) in D2. rewrite <- D2 in V2x. cbn [scale vx] in V2x. lra.
Qed.
(** ** Examples *)
Definition ex_rect : rect := Rect GCRS (V 3 (-4) 12) (Some 2000) (Some (Some Pc)).
Example ex_at : at_au ex_rect (V (3 * K) (-4 * K) (12 * K)) /\ pos ex_rect <> origin /\ norm (pos ex_rect) = 13.
Proof. repeat split; [apply vec_ext; cbn; ring|intros O; injection O; lra|]. unfold norm, ex_rect. cbn [pos vx vy vz]. replace (3 * 3 + -4 * -4 + 12 * 12) with (13 * 13) by ring. apply sqrt_square. lra. Qed.
Example ex_units : exists v, at_au (units ex_rect [Au; Other; Pc; Pc; Au]) v /\ vz v = 12 * K.
Proof. destruct (unit_history ex_rect _ [Au; Other; Pc; Pc; Au] (proj1 ex_at)) as (A & _). eexists. split; [exact A|reflexivity]. Qed.
Example ex_shift : exists r', toOther (fun _ => V 1 0 0) ICRS ex_rect = Ok r' /\ at_au r' (V (3 * K - 1) (-4 * K) (12 * K)).
Proof. destruct (shift (fun _ => V 1 0 0) ICRS ex_rect _ 2000 (proj1 ex_at) eq_refl) as (r' & E & A & _). exists r'. split; [exact E|]. replace (V (3 * K - 1) (-4 * K) (12 * K)) with (minus (V (3 * K) (-4 * K) (12 * K)) (V 1 0 0)); [exact A|]. apply vec_ext; cbn [minus vx vy vz]; ring. Qed.
Example ex_near : exists q', convert (fun _ => V 1 0 0) GCRS (Equ ICRS (C (Ang 0 latrange) (Ang 0 None) None None) (Some 2000) (Some (1, 1 / 10))) = Ok q' /\ distancepc q' = Some (1, 1 / 10).
Proof.
  destruct (convert_near (fun _ => V 1 0 0) GCRS (Equ ICRS (C (Ang 0 latrange) (Ang 0 None) None None) (Some 2000) (Some (1, 1 / 10))) 2000 1 (1 / 10) eq_refl eq_refl) as (q' & E & _ & D & _); [|now exists q'].
  intros O. apply (f_equal vx) in O. unfold dir, unit_of in O. cbn [minus scale ang2 lat long decval vx vy vz origin] in O. rewrite cos_0 in O. unfold K in O. lra.
Qed.
