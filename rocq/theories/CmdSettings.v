(** * CmdSettings: outdated offsets (C68), fiducials, data and settings of a CMDAnalyzer (C69) *)
From Coq Require Import List Bool ZArith Reals Lra Lia Permutation.
From Verif Require Import PyBase CmdModel CmdDict CmdOffsets CmdValues.
Import ListNotations.
Open Scope R_scope.

(** ** what does not clear the offsets *)
Definition all_known (b : name) : bool := true.
Definition same (l : list name) : list name := l.
Ltac calc := cbv -[Rplus Rmult Rminus Ropp Rdiv Rinv sqrt IZR Rlt_dec Rmin Rmax Req_EM_T].
Lemma sq_some q : 0 <= q -> (if Rlt_dec q 0 then None else Some (sqrt q)) = Some (sqrt q).
Proof. intros. destruct (Rlt_dec q 0); [lra|reflexivity]. Qed.
Lemma sqrt_neq a b : 0 <= a -> 0 <= b -> a <> b -> (if Rlt_dec a 0 then None else Some (sqrt a)) <> (if Rlt_dec b 0 then None else Some (sqrt b)).
Proof. intros A B N. rewrite !sq_some by trivial. intros E. apply N. injection E as E. now apply sqrt_inj. Qed.
Theorem C68_locations_refuted : exists s0 ops, init all_known same [[0]] [BName 0%nat] None = Ok s0 /\ Forall good ops /\ let s := run all_known s0 ops in snd (getOffsets s) <> snd (getOffsets (clearOffsets s)).
Proof.
  eexists. exists [CData (DArr [[0]]); CGet; CLocs (Some (2%nat, [[1; 0]]))]. split; [reflexivity|]. split; [repeat constructor; exists 1%nat; repeat constructor|].
  calc. destruct (Req_EM_T 1 0); [lra|]. intros E. injection E. apply sqrt_neq; lra.
Qed.
Theorem C68_center_refuted : exists s0 ops, init all_known same [[0]] [BName 0%nat] None = Ok s0 /\ Forall good ops /\ let s := run all_known s0 ops in snd (getOffsets s) <> snd (getOffsets (clearOffsets s)).
Proof.
  eexists. exists [CData (DArr [[0]]); CLocs (Some (2%nat, [[0; 0]])); CGet; CCen (Some [1; 0])]. split; [reflexivity|]. split; [repeat constructor; exists 1%nat; repeat constructor|].
  calc. destruct (Req_EM_T 1 0); [lra|]. intros E. injection E. apply sqrt_neq; lra.
Qed.
Theorem C68_weights_refuted : exists s0 ops, init all_known same [[0]] [BName 0%nat] None = Ok s0 /\ Forall good ops /\ let s := run all_known s0 ops in snd (getOffsets s) <> snd (getOffsets (clearOffsets s)).
Proof.
  eexists. exists [CData (DArr [[1]]); CBands (Some [OStr [0%nat]]); CWs (Some [2]); CGet; CWs None]. split; [reflexivity|]. split; [repeat constructor; exists 1%nat; repeat constructor|].
  calc. destruct (Rlt_dec 2 0); [lra|]. intros E. injection E. apply sqrt_neq; lra.
Qed.
(** data known only as a color give NaN for the offset in that color *)
Theorem C68_color_only_refuted : exists s0 ops, init all_known same [[1]; [20]] [BColor [0%nat; 1%nat]; BName 1%nat] None = Ok s0 /\ Forall good ops /\ let s := run all_known s0 ops in
  ops = [CData (DMap [(BColor [0%nat; 1%nat], [1])]); CBands (Some [OStr [0%nat; 1%nat]])] /\ snd (getOffsets s) = Ok [None].
Proof. eexists. eexists. split; [reflexivity|]. split; [|split; [reflexivity|reflexivity]]. repeat constructor. exists 1%nat. repeat constructor. Qed.

Definition shift (t : R) (r : row) : row := map (fun x => x + t) r.
Lemma nth_shift t r i : (i < length r)%nat -> nth i (shift t r) 0 = nth i r 0 + t.
Proof. intros L. unfold shift. rewrite (nth_indep _ 0 (0 + t)) by (now rewrite map_length). now rewrite (map_nth (fun x => x + t)). Qed.

Lemma nth_diff (r1 r2 : row) i : (i < length r1)%nat -> length r1 = length r2 -> nth i (map (fun p => fst p - snd p) (combine r1 r2)) 0 = nth i r1 0 - nth i r2 0.
Proof. intros L E. rewrite (nth_indep _ 0 ((fun p : R * R => fst p - snd p) (0, 0))) by (rewrite map_length, combine_length; lia). now rewrite (map_nth (fun p : R * R => fst p - snd p)), combine_nth by congruence. Qed.
(** ** C69 *)
Lemma index_nodup l : NoDup l -> forall i b, nth_error l i = Some b -> index b l = Some i.
Proof.
  induction 1 as [|x l N D IH]; intros i b; [destruct i; discriminate|]. destruct i as [|i]; cbn [nth_error index].
  - intros E; inversion E; subst. now rewrite Nat.eqb_refl.
  - intros E. destruct (Nat.eqb_spec x b) as [->|]; [exfalso; apply N; now apply nth_error_In with i|]. now rewrite (IH _ _ E).
Qed.
(** new data: the magnitudes are read back, the selected bands and the distance stay, weights, locations and names are dropped *)
Theorem C69_data : forall known s v s', reach known s -> good (CData v) -> setData known v s = Ok s' ->
  (offbands s' = offbands s /\ dmod s' = dmod s /\ offws s' = None /\ locs s' = None /\ getDName s' = seq 1 (nd s') /\ names s' = names s) /\
  match v with
  | DArr rows => length rows = length (names s) /\ forall i b r, nth_error (names s) i = Some b -> nth_error rows i = Some r -> fmask s b = true -> getData s' (KBand b) = Ok (Some r)
  | DMap items => forall pre e b r post, items = pre ++ (e, r) :: post -> e = BName b \/ e = BObj b -> ~ given b post -> In b (names s) -> fmask s b = true -> getData s' (KBand b) = Ok (Some r)
  end.
Proof.
  intros known s v s' RS G H. pose proof (reach_wf _ _ RS) as W. unfold setData in H.
  assert (ND : NoDup (names s)) by apply (wf_nodup s W).
  assert (RD : forall d m n i b r, nth_error (names s) i = Some b -> nth_error d i = Some (Some r) -> nth_error m i = Some true -> fmask s b = true -> getData (Cmd (names s) (fid s) (nfid s) (fidnames s) (dmod s) (Some d) m n (cen s) None None (dgrp s) None (offbands s) None (locw s)) (KBand b) = Ok (Some r)).
  { intros d m n i b r NB NR NM FM. pose proof (index_nodup _ ND _ _ NB) as IX. cbn [getData]. unfold valid, dmasked, drow. cbn [names dmask fid dat]. rewrite IX. rewrite (nth_error_nth m i false NM), (nth_error_nth d i None NR). change (fmask _ b) with (fmask s b). rewrite FM.
    assert (existsb (Nat.eqb b) (names s) = true) as ->; [|reflexivity]. apply existsb_exists. exists b. split; [now apply nth_error_In with i|apply Nat.eqb_refl]. }
  destruct v as [rows|items].
  - destruct (Nat.eqb (length rows) (length (names s))) eqn:E; [|discriminate]. apply Nat.eqb_eq in E. injection H as <-. rewrite finish_eq by apply (wf_off s W). split.
    + repeat split. unfold getDName. cbn [dnames nd]. now rewrite <- seq_shift.
    + split; trivial. intros i b r NB NR FM. apply RD with i; trivial; [now apply map_nth_error|]. now apply (map_nth_error (fun _ => true)) in NR.
  - destruct (to_dicts known (map fst items) (map snd items)) as [d| |] eqn:D; try discriminate. set (cols := map _ (names s)) in H. destruct (find _ cols) as [[r0|]|] eqn:FN; try discriminate. injection H as <-. rewrite finish_eq by apply (wf_off s W). split.
    + repeat split. unfold getDName. cbn [dnames nd]. now rewrite <- seq_shift.
    + intros pre e b r post EI EB NG IN FM. pose proof (C67_direct known items d pre e b r post D EI EB NG) as L. destruct (In_nth_error _ _ IN) as [i NB]. assert (NC : nth_error cols i = Some (Some r)). { unfold cols. rewrite (map_nth_error _ _ _ NB). now rewrite L. }
      apply RD with i; trivial. now rewrite (map_nth_error _ _ _ NC).
Qed.
(** one name and, if there are any, one location for every object, after any history *)
Theorem C69_names : forall known s, reach known s -> length (getDName s) = nd s /\ (forall l, locs s = Some l -> length l = nd s).
Proof.
  intros known s RS. pose proof (reach_wf _ _ RS) as W. split; [|apply (wf_locs s W)]. unfold getDName. destruct (dnames s) as [l|] eqn:E; [now apply (wf_names s W)|]. now rewrite map_length, seq_length.
Qed.
(** ... but not one group *)
Theorem C69_groups_refuted : exists s0 ops g, init all_known same [[0]] [BName 0%nat] None = Ok s0 /\ Forall good ops /\ let s := run all_known s0 ops in dgrp s = Some g /\ length g <> nd s.
Proof. eexists. exists [CData (DArr [[1]]); CGrp (Some [1%Z]); CData (DArr [[1; 2]])]. eexists. split; [reflexivity|]. split; [|split; [reflexivity|cbn; lia]]. repeat constructor; [exists 1%nat|exists 2%nat]; repeat constructor. Qed.
(** a fiducial sequence is the part of the whole that its indices say, a color does not depend on the distance modulus and a band is moved by it *)
Theorem C69_fiducial : forall known s k f, reach known s -> getFiducialData s k None = Ok f ->
  (forall fn m, lookup fn (fidnames s) = Some m -> Forall (fun i => (i < nfid s)%nat) m -> getFiducialData s k (Some fn) = Ok (map (fun i => nth i f 0) m)) /\
  (forall v, getFiducialData (setDMod v s) k None = Ok (match k with KBand _ => map (fun x => x + (v - dmod s)) f | KColor _ _ => f end)).
Proof.
  intros known s k f RS H. pose proof (reach_wf _ _ RS) as W. pose proof (fiducial_key s k f W H) as [_ LF]. split.
  - intros fn m L B. revert H. unfold getFiducialData. rewrite L. destruct k as [b|b1 b2].
    + unfold fmask, frow. destruct (lookup b (fid s)) as [[r []]|] eqn:E; try discriminate. pose proof (wf_rect s W _ _ _ E) as LR. rewrite pick_all by trivial. intros H. injection H as <-. f_equal. unfold pick. rewrite map_map. apply map_ext_in. intros i I. rewrite Forall_forall in B. specialize (B i I).
      symmetry. apply (nth_shift (dmod s) r i). rewrite LR. exact B.
    + destruct (lookup b1 (fid s)) as [[r1 m1]|] eqn:E1; destruct (lookup b2 (fid s)) as [[r2 m2]|] eqn:E2; try discriminate. destruct (negb m1 && negb m2); [discriminate|]. pose proof (wf_rect s W _ _ _ E1) as L1. pose proof (wf_rect s W _ _ _ E2) as L2. rewrite !pick_all by trivial. intros H. injection H as <-. f_equal. rewrite Forall_forall in B.
      unfold rsub, rmap2, pick. clear - B L1 L2. induction m as [|i m IH]; [reflexivity|]. cbn [map combine fst snd]. f_equal; [|apply IH; intros; apply B; now right].
      specialize (B i (or_introl eq_refl)). symmetry. apply nth_diff; congruence.
  - intros v. revert H. unfold getFiducialData. cbn [nfid setDMod fidnames dmod fid]. destruct k as [b|b1 b2]; [|intros H; exact H]. change (fmask (setDMod v s) b) with (fmask s b). change (frow (setDMod v s) b) with (frow s b). destruct (fmask s b); [|discriminate]. intros H. injection H as <-. f_equal. rewrite map_map. apply map_ext. intros x. ring.
Qed.
(** the dictionary of fiducial sequences must contain every index exactly once (of two or more fiducial points) *)
Lemma insert_perm x l : Permutation (insert_nat x l) (x :: l).
Proof. induction l as [|y l IH]; [reflexivity|]. cbn [insert_nat]. destruct (Nat.leb x y); [reflexivity|]. rewrite IH. apply perm_swap. Qed.
Lemma sort_perm l : Permutation (sort_nat l) l.
Proof. induction l as [|x l IH]; [reflexivity|]. cbn [sort_nat fold_right]. fold (sort_nat l). rewrite insert_perm. now constructor. Qed.
Theorem C69_sequences : forall known sortb fiducial fbands f s, (2 <= match fiducial with r :: _ => length r | [] => O end)%nat -> init known sortb fiducial fbands (Some f) = Ok s ->
  Permutation (flat_map snd f) (seq 0 (nfid s)) /\ fidnames s = f.
Proof.
  intros known sortb fi fb f s N H. unfold init in H. destruct (to_dicts known fb fi) as [d| |]; try discriminate. cbv zeta in H. match type of H with (if np_all_eq _ ?m then _ else _) = _ => change (2 <= m)%nat in N; set (n := m) in * end. destruct (np_all_eq (sort_nat (flat_map snd f)) n) eqn:E; [|discriminate]. injection H as <-. cbn [nfid fidnames]. split; [|reflexivity]. clearbody n.
  rewrite <- sort_perm. unfold np_all_eq in E. set (l := sort_nat (flat_map snd f)) in *. clearbody l. destruct (Nat.eqb (length l) n). { destruct (list_eq_dec Nat.eq_dec l (seq 0 n)) as [->|]; [reflexivity|discriminate]. }
  destruct (Nat.eqb_spec n 1); [lia|]. destruct l as [|x [|]]; try discriminate. destruct n as [|[|n]]; [lia|lia|]. cbn [seq forallb] in E. apply andb_prop in E. destruct E as [E1 E]. apply andb_prop in E. destruct E as [E2 _]. apply Nat.eqb_eq in E1, E2. lia.
Qed.
Theorem C69_sequences_refuted : exists f s, init all_known same [[0]] [BName 0%nat] (Some f) = Ok s /\ nfid s = 1%nat /\ ~ Permutation (flat_map snd f) (seq 0 (nfid s)).
Proof. exists [(0%nat, [0%nat]); (1%nat, [0%nat])]. eexists. split; [reflexivity|]. split; [reflexivity|]. cbn. intros P. apply Permutation_length in P. discriminate. Qed.
(** bands and colors given as strings are read back *)
Theorem C69_bands : forall s v s', setOffBands (Some (map OStr v)) s = Ok s' -> getOffBands s' = Some (map OStr v).
Proof.
  intros s v s' H. unfold setOffBands in H. destruct (read_offs s (map OStr v)) as [ops| |] eqn:E; try discriminate. destruct (all_some (map (key_of s) ops)) as [ks|] eqn:A; [|discriminate]. injection H as <-. unfold getOffBands. cbn [offbands with_offbands option_map]. f_equal.
  revert ops ks E A. induction v as [|p v IH]; intros ops ks E A; cbn [map read_offs] in E. { injection E as <-. cbn in A. injection A as <-. reflexivity. }
  destruct (read_off s (OStr p)) as [a| |] eqn:RO; try discriminate. destruct (read_offs s (map OStr v)) as [b| |] eqn:E'; try discriminate. injection E as <-.
  assert (Z : forall b i, zindex s b = Ok i -> py_get (names s) i = Some b). { intros c i. unfold zindex. destruct (index c (names s)) as [k|] eqn:IX; [|discriminate]. intros Q. injection Q as <-. rewrite py_get_nat. now apply index_nth. }
  cbn [read_off] in RO. destruct p as [|b1 [|b2 [|]]]; try discriminate.
  - destruct (zindex s b1) as [i| |] eqn:Z1; try discriminate. injection RO as <-. cbn [app map key_of all_some] in A. rewrite (Z _ _ Z1) in A. destruct (all_some (map (key_of s) b)) as [ks'|] eqn:A'; [|discriminate]. injection A as <-. cbn [map]. f_equal. now apply (IH b).
  - destruct (zindex s b1) as [i| |] eqn:Z1; try discriminate. destruct (zindex s b2) as [i2| |] eqn:Z2; try discriminate. injection RO as <-. cbn [app map key_of all_some] in A. rewrite (Z _ _ Z1), (Z _ _ Z2) in A. destruct (all_some (map (key_of s) b)) as [ks'|] eqn:A'; [|discriminate]. injection A as <-. cbn [map]. f_equal. now apply (IH b).
Qed.
(** a color given as a pair selects two bands *)
Theorem C69_pair_refuted : exists s a b s1 s2, setOffBands (Some [OStr [a; b]]) s = Ok s1 /\ setOffBands (Some [OPair (PName a) (PName b)]) s = Ok s2 /\ offbands s1 = Some [KColor a b] /\ offbands s2 = Some [KBand a; KBand b].
Proof. destruct (init all_known same [[0]; [0]] [BName 0%nat; BName 1%nat] None) as [s| |] eqn:E; try discriminate. exists s. injection E as <-. exists 0%nat, 1%nat. eexists. eexists. split; [reflexivity|]. split; [reflexivity|]. split; reflexivity. Qed.
(** weights can be set exactly for selected bands: one for each (and without a selection never) *)
Theorem C69_weights : forall s w, (exists s', setOffWs (Some w) s = Ok s' /\ offws s' = Some w) <-> exists l, offbands s = Some l /\ length w = length l.
Proof.
  intros s w. unfold setOffWs. destruct (offbands s) as [l|].
  - destruct (Nat.eqb_spec (length w) (length l)) as [E|N]. { split; [intros _; now exists l|intros _; eexists; split; reflexivity]. } split; [intros (s' & Q & _); discriminate|intros (l' & Q & L); congruence].
  - split; [intros (s' & Q & _); destruct (Nat.eqb _ _); discriminate|intros (l & Q & _); discriminate].
Qed.
Theorem C69_weights_refuted : exists s w, offbands s = None /\ length w = length (names s) /\ setOffWs (Some w) s = Raise TypeError.
Proof. destruct (init all_known same [[0]; [0]] [BName 0%nat; BName 1%nat] None) as [s| |] eqn:E; try discriminate. exists s. injection E as <-. exists [1; 1]. split; [|split]; [reflexivity|reflexivity|reflexivity]. Qed.
(** an analyzer with two bands of fiducials and of data, a band and a color selected with a positive and a relative weight, meets the hypotheses of C68_offsets, C68_zero and C68_succeeds; its data and fiducials those of C69 *)
Definition ex_ops : list cop := [CData (DArr [[10; 13]; [9; 9]]); CBands (Some [OStr [0%nat]; OStr [0%nat; 1%nat]]); CWs (Some [2; Ropp 1]); CGet].
Definition ex_init : @res cmd := init all_known same [[10; 12]; [9; 11]] [BName 0%nat; BName 1%nat] (Some [(5%nat, [1%nat]); (6%nat, [0%nat])]).
Definition ex_s0 : @res cmd := Eval cbv -[IZR] in ex_init.
Lemma ex_s0_eq : ex_init = ex_s0. Proof. reflexivity. Qed.
Definition ex_s (s0 : cmd) (o : list (option R)) : cmd := Cmd (names s0) (fid s0) (nfid s0) (fidnames s0) 0 (Some [Some [10; 13]; Some [9; 9]]) [true; true] 2 (0, 0, 0) None None None (Some o) (Some [KBand 0%nat; KColor 0%nat 1%nat]) (Some [2; Ropp 1]) (Some 1).
Example C68_nonvacuous : exists s0 s F D W o, ex_init = Ok s0 /\ s = run all_known s0 ex_ops /\ reach all_known s /\
  snd (getOffsets (clearOffsets s)) = Ok o /\ used s = [KBand 0%nat; KColor 0%nat 1%nat] /\ Forall2 (fun k f => getFiducialData s k None = Ok f) (used s) F /\ Forall2 (fun k d => getData s k = Ok (Some d)) (used s) D /\ weights s F D W /\
  W = [2; 1 / 3] /\ locs s = None /\ history all_known s0 Cleared ex_ops = Computed /\ (1 < nd s)%nat /\ dat s <> None /\ nfid s = 2%nat /\
  getFiducialData s (KBand 1%nat) (Some 5%nat) = Ok [11 + 0] /\ getData s (KBand 1%nat) = Ok (Some [9; 9]).
Proof.
  destruct ex_init as [s0| |] eqn:E; pose proof E as E'; rewrite ex_s0_eq in E'; try discriminate. 
  assert (RS : reach all_known (run all_known s0 ex_ops)).
  { exists same, [[10; 12]; [9; 11]], [BName 0%nat; BName 1%nat], (Some [(5%nat, [1%nat]); (6%nat, [0%nat])]), s0, ex_ops, 2%nat. split; [reflexivity|]. split; [repeat constructor|]. split; [exact E|]. split; [|reflexivity]. repeat constructor. exists 2%nat. repeat constructor. }
  assert (SE : exists o, run all_known s0 ex_ops = ex_s s0 o /\ history all_known s0 Cleared ex_ops = Computed). { unfold ex_s0 in E'. injection E' as <-. eexists. split; reflexivity. }
  destruct SE as (o0 & SE & HC). rewrite SE in RS. assert (NS : names s0 = [0; 1]%nat /\ nfid s0 = 2%nat /\ fid s0 = [(0%nat, ([10; 12], true)); (1%nat, ([9; 11], true))] /\ fidnames s0 = [(5%nat, [1%nat]); (6%nat, [0%nat])]). { unfold ex_s0 in E'. injection E' as <-. repeat split. }
  assert (SX : ex_s s0 o0 = Cmd [0; 1]%nat [(0%nat, ([10; 12], true)); (1%nat, ([9; 11], true))] 2 [(5%nat, [1%nat]); (6%nat, [0%nat])] 0 (Some [Some [10; 13]; Some [9; 9]]) [true; true] 2 (0, 0, 0) None None None (Some o0) (Some [KBand 0%nat; KColor 0%nat 1%nat]) (Some [2; Ropp 1]) (Some 1)).
  { destruct NS as (A & B & C & D). unfold ex_s. now rewrite A, B, C, D. }
  rewrite SX in RS, SE. clear SX E' NS. set (s := Cmd _ _ _ _ _ _ _ _ _ _ _ _ _ _ _ _) in *.
  assert (O : exists o, snd (getOffsets (clearOffsets s)) = Ok o). { destruct (C68_succeeds _ _ RS) as (o & O & _); [discriminate|cbn; lia|discriminate| |now exists o]. intros l L. injection L as <-. constructor; [reflexivity|]. constructor; [now left|constructor]. }
  destruct O as (o & O). exists s0, s, [[10 + 0; 12 + 0]; [10 - 9; 12 - 11]], [[10; 13]; [10 - 9; 13 - 9]], [2; 1 / 3], o.
  split; [reflexivity|]. split; [now symmetry|]. split; [exact RS|]. split; [exact O|]. clear O. split; [reflexivity|]. split; [repeat constructor|]. split; [repeat constructor|].
  split. { unfold weights. cbn [offws s combine]. constructor; [|constructor; [|constructor]]; cbn [fst snd].
    - left. split; [lra|reflexivity].
    - right. split; [lra|]. exists 0, (-3). split; [|split; [lra|field]]. split; [|split].
      + intros x y [<-|[<-|[]]] [<-|[<-|[]]]; lra.
      + exists (10 - 9), (10 - 9). split; [now left|]. split; [now left|]. lra.
      + exists (10 - 9), (13 - 9). split; [now left|]. split; [right; now left|]. lra. }
  split; [reflexivity|]. split; [reflexivity|]. split; [exact HC|]. split; [cbn; lia|]. split; [discriminate|]. split; [reflexivity|]. split; reflexivity.
Qed.
