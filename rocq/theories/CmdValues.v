(** * CmdValues: what the offsets are (C68), the fiducial data and the settings (C69) *)
From Coq Require Import List Bool ZArith Reals Lra Lia Permutation.
From Verif Require Import PyBase CmdModel CmdDict CmdOffsets.
Import ListNotations.
Open Scope R_scope.

(** ** specification *)
(** the bands or colors that count: those selected, or else all valid bands *)
Definition used (s : cmd) : list key := match offbands s with Some l => l | None => map KBand (filter (valid s) (names s)) end.
(** squared distance of the object j from the fiducial point k, with F and D the fiducials and the data in each band or color *)
Fixpoint distance2 (F D : list row) (W : list R) (j k : nat) : R :=
  match F, D, W with f :: F, d :: D, w :: W => (w * (nth j d 0 - nth k f 0)) ^ 2 + distance2 F D W j k | _, _, _ => 0 end.
(** a negative weight is relative to the range of all differences *)
Definition extremes (f d : row) (hi lo : R) : Prop :=
  (forall x y, In x f -> In y d -> lo <= x - y <= hi) /\ (exists x y, In x f /\ In y d /\ hi = x - y) /\ (exists x y, In x f /\ In y d /\ lo = x - y).
Definition weight_of (w : R) (f d : row) (w' : R) : Prop := 0 <= w /\ w' = w \/ w < 0 /\ exists hi lo, extremes f d hi lo /\ lo < hi /\ w' = - w / (hi - lo).
Definition weights (s : cmd) (F D : list row) (W : list R) : Prop :=
  match offws s with None => W = map (fun _ => 1) F | Some ws => Forall2 (fun p w' => weight_of (fst p) (fst (snd p)) (snd (snd p)) w') (combine ws (combine F D)) W end.
Definition location2 (s : cmd) (j : nat) : R :=
  match locw s, locs s with
  | Some w, Some l => let '(x, y, z) := cen s in w * fold_right Rplus 0 (map (fun p => (fst p - snd p) ^ 2) (combine (nth j l []) [x; y; z]))
  | _, _ => 0
  end.

(** ** minima and maxima of lists *)
Lemma rminl_spec l : l <> [] -> In (rminl l) l /\ forall x, In x l -> rminl l <= x.
Proof.
  destruct l as [|a l]; [congruence|intros _]. unfold rminl. revert a. induction l as [|b l IH]; intros a; cbn [fold_left]. { split; [now left|]. intros x [->|[]]. lra. }
  destruct (IH (Rmin a b)) as [I L]. split.
  - destruct I as [I|I]; [|right; now right]. rewrite <- I. unfold Rmin. destruct (Rle_dec a b); [now left|right; now left].
  - intros x [->|[->|X]]; [| |now apply L; right]; (apply Rle_trans with (Rmin a b) || apply Rle_trans with (Rmin x b) || apply Rle_trans with (Rmin a x)); try (apply L; now left); [apply Rmin_l|apply Rmin_r].
Qed.
Lemma rmaxl_spec l : l <> [] -> In (rmaxl l) l /\ forall x, In x l -> x <= rmaxl l.
Proof.
  destruct l as [|a l]; [congruence|intros _]. unfold rmaxl. revert a. induction l as [|b l IH]; intros a; cbn [fold_left]. { split; [now left|]. intros x [->|[]]. lra. }
  destruct (IH (Rmax a b)) as [I L]. split.
  - destruct I as [I|I]; [|right; now right]. rewrite <- I. unfold Rmax. destruct (Rle_dec a b); [right; now left|now left].
  - intros x [->|[->|X]]; [| |now apply L; right]; [apply Rle_trans with (Rmax x b); [apply Rmax_l|]|apply Rle_trans with (Rmax a x); [apply Rmax_r|]]; apply L; now left.
Qed.
Lemma diffs_in f d z : In z (diffs f d) <-> exists x y, In x f /\ In y d /\ z = x - y.
Proof.
  unfold diffs. rewrite in_flat_map. split.
  - intros (y & Y & I). apply in_map_iff in I. destruct I as (x & <- & X). now exists x, y.
  - intros (x & y & X & Y & ->). exists y. split; trivial. apply in_map_iff. now exists x.
Qed.
Lemma eff_weight_of w f d w' : weight_of w f d w' -> eff_weight w f d = w'.
Proof.
  unfold eff_weight. intros [[P ->]|(N & hi & lo & (B & (x1 & y1 & X1 & Y1 & E1) & (x2 & y2 & X2 & Y2 & E2)) & L & ->)]; destruct (Rlt_dec w 0); try lra.
  assert (NE : diffs f d <> []). { intros Q. assert (I : In hi (diffs f d)) by (apply diffs_in; now exists x1, y1). rewrite Q in I. destruct I. }
  destruct (rmaxl_spec _ NE) as [MI ML]. destruct (rminl_spec _ NE) as [NI NL]. apply diffs_in in MI, NI. destruct MI as (a & b & A & Bb & EM). destruct NI as (a' & b' & A' & Bb' & EN).
  assert (rmaxl (diffs f d) = hi). { apply Rle_antisym; [rewrite EM; now apply B|]. apply ML, diffs_in. now exists x1, y1. }
  assert (rminl (diffs f d) = lo). { apply Rle_antisym; [|rewrite EN; now apply B]. apply NL, diffs_in. now exists x2, y2. }
  now rewrite H, H0.
Qed.

Lemma Forall2_length {A B} (P : A -> B -> Prop) l l' : Forall2 P l l' -> length l = length l'.
Proof. induction 1; simpl; congruence. Qed.
Lemma nth_map_seq {A} (f : nat -> A) n j d : (j < n)%nat -> nth j (map f (seq 0 n)) d = f j.
Proof. intros J. rewrite (nth_indep _ d (f O)) by (now rewrite map_length, seq_length). rewrite map_nth, seq_nth by trivial. reflexivity. Qed.
Lemma pick_all r n : length r = n -> pick (seq 0 n) r = r.
Proof.
  intros <-. unfold pick. assert (G : forall pre, map (fun i => nth i (pre ++ r) 0) (seq (length pre) (length r)) = r).
  { induction r as [|x r IH]; intros pre; [reflexivity|]. cbn [length seq map]. f_equal; [rewrite app_nth2, Nat.sub_diag by lia; reflexivity|]. specialize (IH (pre ++ [x])). rewrite app_length, Nat.add_1_r in IH. rewrite <- app_assoc in IH. exact IH. }
  exact (G []).
Qed.
Lemma fiducial_key s k f : wf s -> getFiducialData s k None = Ok f -> fkey s k = f /\ length f = nfid s.
Proof.
  intros W. unfold getFiducialData. destruct k as [b|b1 b2]; cbn [fkey].
  - unfold fmask, frow. destruct (lookup b (fid s)) as [[r m]|] eqn:L; [|discriminate]. destruct m; [|discriminate]. pose proof (wf_rect s W _ _ _ L) as LR. rewrite pick_all by trivial. intros H; inversion H; subst. split; [reflexivity|]. now rewrite map_length.
  - unfold frow. destruct (lookup b1 (fid s)) as [[r1 m1]|] eqn:L1; destruct (lookup b2 (fid s)) as [[r2 m2]|] eqn:L2; try discriminate. destruct (negb m1 && negb m2); [discriminate|]. pose proof (wf_rect s W _ _ _ L1). pose proof (wf_rect s W _ _ _ L2). rewrite !pick_all by trivial. intros Q; inversion Q; subst. split; [reflexivity|]. now apply rmap2_length.
Qed.
Lemma data_key s k d : getData s k = Ok (Some d) -> dkey s k = Some d.
Proof.
  unfold getData. destruct k as [b|b1 b2]; cbn [dkey].
  - destruct (valid s b); [|discriminate]. now intros H; inversion H.
  - destruct (negb (valid s b1) && negb (valid s b2)); [discriminate|]. destruct (index b1 (names s)), (index b2 (names s)); try discriminate. now intros H; inversion H.
Qed.
Lemma all_keys_used s : offbands s = None -> all_keys s = used s.
Proof.
  intros O. unfold all_keys, used. rewrite O. f_equal. apply filter_ext_in. intros b I. unfold valid. assert (E : existsb (Nat.eqb b) (names s) = true) by (apply existsb_exists; exists b; split; [trivial|apply Nat.eqb_refl]). rewrite E. cbn [andb]. apply andb_comm.
Qed.
Lemma sepsq_distance F D W j k : length F = length D -> length D = length W -> sepsq (combine (combine F D) W) j k = distance2 F D W j k.
Proof.
  revert D W. induction F as [|f F IH]; intros [|d D] [|w W] L1 L2; try discriminate; [reflexivity|]. injection L1 as L1. injection L2 as L2. cbn [combine sepsq distance2]. rewrite IH by trivial. ring.
Qed.
Lemma distance_pos F D W j k : 0 <= distance2 F D W j k.
Proof. revert D W. induction F as [|f F IH]; intros [|d D] [|w W]; cbn [distance2]; try lra. specialize (IH D W). pose proof (pow2_ge_0 (w * (nth j d 0 - nth k f 0))). lra. Qed.
Lemma loc_eq s j : loc_term s j = location2 s j.
Proof.
  unfold loc_term, location2. destruct (locw s) as [w|]; [|reflexivity]. destruct (locs s) as [l|]; [|reflexivity]. destruct (cen s) as [[x y] z]. 
  assert (E : forall a b, dot a b = fold_right Rplus 0 (map (fun p => (fst p - snd p) ^ 2) (combine a b))). { induction a as [|u a IH]; intros [|v b]; try reflexivity. cbn [dot combine map fold_right fst snd]. rewrite IH. ring. }
  destruct (Req_EM_T w 0) as [->|]; [|now rewrite E]. ring.
Qed.
Lemma calculated s o F D W : wf s -> snd (getOffsets (clearOffsets s)) = Ok o ->
  Forall2 (fun k f => getFiducialData s k None = Ok f) (used s) F -> Forall2 (fun k d => getData s k = Ok (Some d)) (used s) D -> weights s F D W ->
  F <> [] /\ (0 < nfid s)%nat /\ length F = length D /\ length D = length W /\
  o = map (fun j => let q := rminl (map (distance2 F D W j) (seq 0 (nfid s))) + location2 s j in if Rlt_dec q 0 then None else Some (sqrt q)) (seq 0 (nd s)).
Proof.
  intros WF G HF HD HW. assert (CE : calculate (clearOffsets s) = calculate s) by apply calculate_offsets. unfold getOffsets in G. rewrite CE in G. cbn [dat clearOffsets with_offsets offsets] in G. destruct (dat s) as [dd|] eqn:DD; [|discriminate].
  assert (C : calculate s = Ok o) by (destruct (calculate s); inversion G; reflexivity). clear G CE.
  assert (LF : length (used s) = length F) by (eapply Forall2_length; eauto). assert (LD : length (used s) = length D) by (eapply Forall2_length; eauto).
  assert (FE : map (fkey s) (used s) = F). { clear - HF WF. induction HF as [|k f l F H HF IH]; [reflexivity|]. cbn [map]. rewrite IH. f_equal. now apply fiducial_key. }
  assert (DE : all_some (map (dkey s) (used s)) = Some D). { apply all_some_map. clear - HD. induction HD; constructor; trivial. now apply data_key. }
  assert (K : match used s, nfid s with [], _ | _, O => Raise ValueError | _, _ => Ok (map (fun j => let q := rminl (map (sepsq (combine (combine F D) (match offws s with None => map (fun _ => 1) (used s) | Some ws => map (fun p => eff_weight (fst p) (fst (snd p)) (snd (snd p))) (combine ws (combine F D)) end)) j) (seq 0 (nfid s))) + loc_term s j in if Rlt_dec q 0 then None else Some (sqrt q)) (seq 0 (nd s))) end = Ok o).
  { rewrite <- C. unfold calculate. destruct (offbands s) as [l|] eqn:O.
    - assert (U : used s = l) by (unfold used; now rewrite O). rewrite U in *. unfold calculate in C. rewrite O in C. destruct (check_keys s l); try discriminate. destruct l as [|k l]; [reflexivity|]. destruct (nfid s); [reflexivity|]. rewrite DE, FE. reflexivity.
    - rewrite all_keys_used by trivial. destruct (used s) as [|k l]; [reflexivity|]. destruct (nfid s); [reflexivity|]. rewrite DE, FE. reflexivity. }
  assert (WE : match offws s with None => map (fun _ => 1) (used s) | Some ws => map (fun p => eff_weight (fst p) (fst (snd p)) (snd (snd p))) (combine ws (combine F D)) end = W /\ length D = length W).
  { unfold weights in HW. destruct (offws s) as [ws|] eqn:E.
    - split. { clear - HW. induction HW; [reflexivity|]. cbn [map]. rewrite IHHW. f_equal. now apply eff_weight_of. }
      apply Forall2_length in HW. rewrite <- HW. destruct (wf_ws s WF _ E) as (l & O & Lw). assert (U : used s = l) by (unfold used; now rewrite O). rewrite !combine_length. rewrite U in *. lia.
    - subst W. split; [|rewrite map_length; congruence]. clear - LF. revert F LF. induction (used s) as [|k l IH]; intros [|f F] L; try discriminate; [reflexivity|]. cbn [map]. f_equal. apply IH. now injection L. }
  destruct WE as [WE LW]. rewrite WE in K. assert (LFD : length F = length D) by congruence.
  assert (NE : F <> [] /\ (0 < nfid s)%nat). { destruct (used s) as [|k l]; [discriminate|]. destruct (nfid s); [discriminate|]. split; [|lia]. intros ->. discriminate LF. }
  destruct NE as [NE NP]. repeat split; trivial.
  assert (TT : map (fun j => let q := rminl (map (sepsq (combine (combine F D) W) j) (seq 0 (nfid s))) + loc_term s j in if Rlt_dec q 0 then None else Some (sqrt q)) (seq 0 (nd s)) = map (fun j => let q := rminl (map (distance2 F D W j) (seq 0 (nfid s))) + location2 s j in if Rlt_dec q 0 then None else Some (sqrt q)) (seq 0 (nd s))).
  { apply map_ext. intros j. cbv zeta. rewrite loc_eq. assert (map (sepsq (combine (combine F D) W) j) (seq 0 (nfid s)) = map (distance2 F D W j) (seq 0 (nfid s))) as ->; [|reflexivity]. apply map_ext. intros i. now apply sepsq_distance. }
  rewrite TT in K. destruct (used s) as [|k l]; [discriminate|]. destruct (nfid s) as [|nf]; [discriminate|]. congruence.
Qed.
(** the offset of each object is its distance from the nearest fiducial point in the bands and colors used, combined with its distance from the center *)
Theorem C68_offsets : forall known s o F D W, reach known s -> snd (getOffsets (clearOffsets s)) = Ok o ->
  Forall2 (fun k f => getFiducialData s k None = Ok f) (used s) F -> Forall2 (fun k d => getData s k = Ok (Some d)) (used s) D -> weights s F D W ->
  length o = nd s /\ forall j, (j < nd s)%nat -> 0 <= location2 s j -> exists x, nth j o None = Some x /\ 0 <= x /\
  (exists k, (k < nfid s)%nat /\ x ^ 2 = distance2 F D W j k + location2 s j) /\ (forall k, (k < nfid s)%nat -> x ^ 2 <= distance2 F D W j k + location2 s j).
Proof.
  intros known s o F D W R G HF HD HW. destruct (calculated s o F D W (reach_wf _ _ R) G HF HD HW) as (NE & NP & L1 & L2 & ->). split; [now rewrite map_length, seq_length|]. intros j J PL.
  rewrite nth_map_seq by trivial. cbv zeta.
  assert (ME : map (distance2 F D W j) (seq 0 (nfid s)) <> []) by (destruct (nfid s); [lia|discriminate]). destruct (rminl_spec _ ME) as [I L]. set (m := rminl _) in *. apply in_map_iff in I. destruct I as (k & E & K). apply in_seq in K.
  assert (0 <= m) by (rewrite <- E; apply distance_pos). destruct (Rlt_dec (m + location2 s j) 0); [lra|]. assert (0 <= m + location2 s j) by lra. exists (sqrt (m + location2 s j)). split; [reflexivity|]. split; [apply sqrt_pos|].
  assert (SQ : sqrt (m + location2 s j) ^ 2 = m + location2 s j). { replace (sqrt (m + location2 s j) ^ 2) with (sqrt (m + location2 s j) * sqrt (m + location2 s j)) by ring. now apply sqrt_sqrt. } rewrite SQ. split.
  - exists k. split; [lia|]. now rewrite E.
  - intros k' K'. assert (m <= distance2 F D W j k'); [|lra]. apply L, in_map_iff. exists k'. split; [reflexivity|]. apply in_seq. lia.
Qed.
(** with nonzero weights and no locations, the offset is zero exactly for an object that coincides with a fiducial point *)
Theorem C68_zero : forall known s o F D W j, reach known s -> snd (getOffsets (clearOffsets s)) = Ok o ->
  Forall2 (fun k f => getFiducialData s k None = Ok f) (used s) F -> Forall2 (fun k d => getData s k = Ok (Some d)) (used s) D -> weights s F D W -> Forall (fun w => w <> 0) W -> locs s = None -> (j < nd s)%nat ->
  (nth j o None = Some 0 <-> exists k, (k < nfid s)%nat /\ Forall (fun p => nth k (fst p) 0 = nth j (snd p) 0) (combine F D)).
Proof.
  intros known s o F D W j R G HF HD HW NZ NL J. destruct (calculated s o F D W (reach_wf _ _ R) G HF HD HW) as (_ & _ & L1 & L2 & _). destruct (C68_offsets known s o F D W R G HF HD HW) as [_ C].
  assert (LZ : location2 s j = 0) by (unfold location2; rewrite NL; now destruct (locw s)). destruct (C j J) as (x & -> & PX & (k & K & E) & M); [lra|]. rewrite LZ in *.
  assert (Z : forall k, distance2 F D W j k = 0 <-> Forall (fun p => nth k (fst p) 0 = nth j (snd p) 0) (combine F D)).
  { clear - NZ L1 L2. intros k. revert D W L1 L2 NZ. induction F as [|f F IH]; intros [|d D] [|w W] L1 L2 NZ; try discriminate; [split; [constructor|reflexivity]|]. inversion NZ; subst. injection L1 as L1. injection L2 as L2. cbn [distance2 combine]. specialize (IH D W L1 L2 H2). pose proof (distance_pos F D W j k) as DP. set (t := w * (nth j d 0 - nth k f 0)) in *. assert (T : 0 <= t ^ 2) by apply pow2_ge_0. split.
    - intros Q. constructor; [|apply IH; lra]. cbn [fst snd]. assert (T0 : t ^ 2 = 0) by lra. assert (t = 0) by nra. unfold t in H. apply Rmult_integral in H. destruct H; [contradiction|lra].
    - intros Q. inversion Q; subst. apply IH in H4. cbn [fst snd] in H3. assert (t = 0) by (unfold t; rewrite H3; ring). rewrite H, H4. ring. }
  split.
  - intros Q. inversion Q; subst. exists k. split; trivial. apply Z. lra.
  - intros (k' & K' & A). apply Z in A. specialize (M k' K'). assert (x = 0) by nra. now subst.
Qed.
(** getOffsets works whenever there are data and fiducials, and every selected band is present in both (for a color: one of its bands) *)
Theorem C68_succeeds : forall known s, reach known s -> dat s <> None -> (0 < nfid s)%nat -> used s <> [] ->
  (forall l, offbands s = Some l -> Forall (fun k => match k with KBand b => valid s b = true | KColor a b => valid s a = true \/ valid s b = true end) l) -> exists o, snd (getOffsets (clearOffsets s)) = Ok o /\ length o = nd s.
Proof.
  intros known s R D N U V. pose proof (reach_wf _ _ R) as W. assert (C : exists o, calculate s = Ok o /\ length o = nd s).
  { unfold calculate. destruct (offbands s) as [l|] eqn:O.
    - assert (US : used s = l) by (unfold used; now rewrite O). rewrite US in *.
      assert (CK : check_keys s l = Ok tt). { pose proof (wf_off s W l O) as KI. specialize (V l eq_refl). clear - V KI. induction l as [|k l IH]; [reflexivity|]. inversion V; subst. inversion KI; subst. cbn [check_keys].
        assert (check_key s k = Ok tt) as ->; [|now apply IH]. unfold valid in H1. destruct k as [b|a b]; cbn [check_key key_in] in *.
        - destruct (index_in _ _ H3) as [i ->]. apply andb_prop in H1. destruct H1 as [H1 ->]. apply andb_prop in H1. destruct H1 as [_ ->]. reflexivity.
        - destruct H3 as [Ha Hb]. destruct (index_in _ _ Ha) as [i ->]. destruct (index_in _ _ Hb) as [i' ->]. destruct H1 as [H1|H1]; apply andb_prop in H1; destruct H1 as [H1 ->]; apply andb_prop in H1; destruct H1 as [_ ->]; [reflexivity|]. now rewrite orb_true_r. }
      rewrite CK. destruct l as [|k l]; [congruence|]. destruct (nfid s); [lia|]. destruct (all_some _); eexists; (split; [reflexivity|]); now rewrite map_length, seq_length.
    - rewrite all_keys_used by trivial. destruct (used s) as [|k l]; [congruence|]. destruct (nfid s); [lia|]. destruct (all_some _); eexists; (split; [reflexivity|]); now rewrite map_length, seq_length. }
  destruct C as (o & C & L). exists o. split; trivial. assert (CE : calculate (clearOffsets s) = calculate s) by apply calculate_offsets. unfold getOffsets. rewrite CE, C. cbn [dat clearOffsets with_offsets offsets]. destruct (dat s); [reflexivity|congruence].
Qed.
