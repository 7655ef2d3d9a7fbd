(** * CmdOffsets: the offsets of a CMDAnalyzer after any history (C68), its fiducials and data (C69) *)
From Coq Require Import List Bool ZArith Reals Lra Lia Permutation.
From Verif Require Import PyBase CmdModel CmdDict.
Import ListNotations.
Open Scope R_scope.

(** ** what a user may do *)
Inductive cop := CGet | CClear | CDMod (v : R) | CLocW (v : option R) | CWs (v : option (list R)) | CBands (v : option (list off_in)) | CData (v : data_in)
  | CLocs (v : option (nat * list (list R))) | CCen (v : option (list R)) | CNames (v : list nat) | CGrp (v : option (list Z)).
Definition attempt (s : cmd) (r : @res cmd) : cmd * bool := match r with Ok s' => (s', true) | _ => (s, false) end.
(** the new state, and whether the operation succeeded *)
Definition step (known : name -> bool) (s : cmd) (o : cop) : cmd * bool :=
  match o with
  | CGet => (fst (getOffsets s), match snd (getOffsets s) with Ok _ => true | _ => false end)
  | CClear => (clearOffsets s, true)
  | CDMod v => (setDMod v s, true)
  | CLocW v => (setLocW v s, true)
  | CWs v => attempt s (setOffWs v s)
  | CBands v => attempt s (setOffBands v s)
  | CData v => attempt s (setData known v s)
  | CLocs v => attempt s (setLocs v s)
  | CCen v => attempt s (setCen v s)
  | CNames v => attempt s (setDName v s)
  | CGrp v => attempt s (setDGrp v s)
  end.
Fixpoint run (known : name -> bool) (s : cmd) (l : list cop) : cmd := match l with [] => s | o :: l => run known (fst (step known s o)) l end.
(** arrays are rectangular *)
Definition good (o : cop) : Prop :=
  match o with
  | CData (DArr rows) => exists n, Forall (fun r : row => length r = n) rows
  | CData (DMap items) => exists n, Forall (fun e => length (snd e) = n) items
  | _ => True
  end.
(** the states of an analyzer *)
Definition reach (known : name -> bool) (s : cmd) : Prop :=
  exists sortb fiducial fbands fn s0 ops n, (forall l, Permutation (sortb l) l) /\ Forall (fun r : row => length r = n) fiducial /\ init known sortb fiducial fbands fn = Ok s0 /\ Forall good ops /\ s = run known s0 ops.

Lemma all_some_map {A B} (f : A -> option B) l r : all_some (map f l) = Some r <-> Forall2 (fun a b => f a = Some b) l r.
Proof.
  revert r. induction l as [|a l IH]; intros r; cbn [map all_some].
  - split; [intros H; inversion H; constructor|intros H; inversion H; reflexivity].
  - split.
    + destruct (f a) as [b|] eqn:E; [|discriminate]. destruct (all_some (map f l)) as [r'|] eqn:E'; [|discriminate]. intros H; inversion H; subst. constructor; trivial. now apply IH.
    + intros H; inversion H; subst. rewrite H2. apply IH in H4. now rewrite H4.
Qed.
Lemma index_nth b l i : index b l = Some i -> (i < length l)%nat /\ nth_error l i = Some b.
Proof.
  revert i. induction l as [|x l IH]; intros i; cbn [index]; [discriminate|]. destruct (Nat.eqb_spec x b) as [->|]; [intros H; inversion H; subst; split; [simpl; lia|reflexivity]|].
  destruct (index b l) as [j|]; [|discriminate]. intros H; inversion H; subst. destruct (IH j eq_refl). split; [simpl; lia|trivial].
Qed.
Lemma index_in b l : In b l -> exists i, index b l = Some i.
Proof.
  induction l as [|x l IH]; [intros []|]. intros I. cbn [index]. destruct (Nat.eqb_spec x b) as [|N]; [now exists O|]. destruct I as [I|I]; [congruence|]. destruct (IH I) as [i ->]. now exists (S i).
Qed.
Lemma py_get_nat {A} (l : list A) i : py_get l (Z.of_nat i) = nth_error l i.
Proof.
  unfold py_get, py_index. destruct (Z.leb_spec 0 (Z.of_nat i)); [|lia]. destruct (Z.ltb_spec (Z.of_nat i) (Z.of_nat (length l))); [now rewrite Nat2Z.id|]. symmetry. apply nth_error_None. lia.
Qed.

(** ** invariant *)
Definition key_in (ns : list name) (k : key) : Prop := match k with KBand b => In b ns | KColor a b => In a ns /\ In b ns end.
Record wf (s : cmd) : Prop := {
  wf_nodup : NoDup (names s);
  wf_keys : forall b, In b (names s) <-> lookup b (fid s) <> None;
  wf_rect : rect (nfid s) (fid s);
  wf_off : forall l, offbands s = Some l -> Forall (key_in (names s)) l;
  wf_ws : forall w, offws s = Some w -> exists l, offbands s = Some l /\ length w = length l;
  wf_locs : forall l, locs s = Some l -> length l = nd s;
  wf_names : forall l, dnames s = Some l -> length l = nd s;
  wf_dat : forall d, dat s = Some d -> length d = length (names s) /\ (forall r, In (Some r) d -> length r = nd s);
  wf_mask : forall d b, dat s = Some d -> dmasked s b = true -> drow s b <> None;
  wf_nd : dat s = None -> nd s = O }.

Lemma names_of_dict known fb fi d : to_dicts known fb fi = Ok d -> forall b, In b (map fst d) <-> lookup b d <> None.
Proof.
  intros _ b. induction d as [|[k v] d IH]; simpl; [split; [intros []|congruence]|]. destruct (Nat.eqb_spec k b) as [->|N]; [split; [congruence|now left]|]. rewrite <- IH. split; [intros [|]; [congruence|trivial]|now right].
Qed.
Lemma store_keys {A} b (v : A) d : (In b (map fst d) -> map fst (store b v d) = map fst d) /\ (~ In b (map fst d) -> map fst (store b v d) = map fst d ++ [b]).
Proof.
  induction d as [|[k w] d [IH1 IH2]]; simpl; [split; [intros []|reflexivity]|]. destruct (Nat.eqb_spec k b) as [->|N]; simpl; [split; [reflexivity|intros Q; exfalso; apply Q; now left]|].
  split; [intros [Q|Q]; [congruence|now rewrite IH1]|]. intros Q. rewrite IH2; [reflexivity|]. intros Q'. apply Q. now right.
Qed.
Lemma store_nodup {A} b (v : A) d : NoDup (map fst d) -> NoDup (map fst (store b v d)).
Proof.
  intros N. destruct (store_keys b v d) as [S1 S2]. destruct (in_dec Nat.eq_dec b (map fst d)) as [I|I]; [now rewrite S1|]. rewrite S2 by trivial. apply (Permutation_NoDup (l := b :: map fst d)); [apply Permutation_cons_append|]. now constructor.
Qed.
Lemma color_nodup known d e d' : color_step known d e = Ok d' -> NoDup (map fst d) -> NoDup (map fst d').
Proof.
  destruct e as [[b|p|b] r]; cbn [color_step]; [now (intros H; inversion H; subst)| |now (intros H; inversion H; subst)].
  destruct p as [|b1 [|b2 [|]]]; try discriminate. destruct (lookup b1 d) as [[r1 m1]|]; destruct (lookup b2 d) as [[r2 m2]|]; [|destruct (known b2)|destruct (known b1)|destruct (known b1 && known b2)]; try discriminate; intros H; inversion H; subst; trivial; intros; repeat apply store_nodup; trivial.
Qed.
Lemma colors_nodup known items : forall d d', colors known d items = Ok d' -> NoDup (map fst d) -> NoDup (map fst d').
Proof.
  induction items as [|e items IH]; intros d d'; cbn [colors]; [now intros H; inversion H; subst|]. destruct (color_step known d e) as [d1| |] eqn:E; try discriminate. intros H N. apply (IH d1); trivial. now apply (color_nodup known d e).
Qed.
Lemma dicts_nodup known fb fi d : to_dicts known fb fi = Ok d -> NoDup (map fst d).
Proof.
  unfold to_dicts. destruct (Nat.eqb _ _); [|discriminate]. destruct (check_all known fb); try discriminate. intros H. apply (colors_nodup _ _ _ _ H). clear. assert (N : NoDup (map fst ([] : dict))) by constructor. revert N. generalize ([] : dict) as d.
  induction (combine fb fi) as [|[e r] l IH]; intros d N; [exact N|]. cbn [fold_left]. apply IH. rewrite direct_store. destruct (direct e); [now apply store_nodup|exact N].
Qed.
Lemma to_dicts_len known fb fi d : to_dicts known fb fi = Ok d -> length fb = length fi.
Proof. unfold to_dicts. destruct (Nat.eqb_spec (length fb) (length fi)); [trivial|discriminate]. Qed.
Lemma init_wf known sortb fiducial fbands fn s n : (forall l, Permutation (sortb l) l) -> Forall (fun r : row => length r = n) fiducial -> init known sortb fiducial fbands fn = Ok s -> wf s.
Proof.
  intros P F H. unfold init in H. destruct (to_dicts known fbands fiducial) as [d| |] eqn:D; try discriminate.
  assert (W : forall f, wf (Cmd (sortb (map fst d)) d (match fiducial with r :: _ => length r | [] => O end) f 0 None (map (fun _ => false) (sortb (map fst d))) 0 (0, 0, 0) None None None None None None (Some 1))).
  { intros f. constructor; cbn [names fid nfid offbands offws locs dnames dat nd]; try discriminate; try reflexivity.
    - apply (Permutation_NoDup (l := map fst d)); [symmetry; apply P|]. now apply dicts_nodup in D.
    - intros b. rewrite <- (names_of_dict _ _ _ _ D b). split; apply Permutation_in; [apply P|symmetry; apply P].
    - assert (L : length fbands = length fiducial) by exact (to_dicts_len _ _ _ _ D).
      assert (E : fbands = map fst (combine fbands fiducial) /\ fiducial = map snd (combine fbands fiducial)).
      { clear - L. revert fiducial L. induction fbands as [|b fb IH]; intros [|r fi] L; try discriminate; [now split|]. cbn. destruct (IH fi) as [A B]; [now injection L|]. rewrite <- A, <- B. now split. }
      destruct E as [E1 E2]. assert (D' : to_dicts known (map fst (combine fbands fiducial)) (map snd (combine fbands fiducial)) = Ok d) by (rewrite <- E1, <- E2; exact D). assert (N : match fiducial with r :: _ => length r | [] => O end = n \/ fiducial = []). { destruct F; [now right|now left]. }
      destruct N as [->| ->].
      + apply (rect_dicts known n (combine fbands fiducial)); trivial. apply Forall_forall. intros [b r] I. apply in_combine_r in I. rewrite Forall_forall in F. now apply F.
      + apply (rect_dicts known _ (combine fbands [])); trivial. rewrite combine_nil. constructor. }
  destruct fn as [f|]; [destruct (np_all_eq _ _); [|discriminate]|]; inversion H; subst; apply W.
Qed.
Lemma wf_with_offsets s o : wf s -> wf (with_offsets s o).
Proof. intros []. constructor; trivial. Qed.
Lemma key_of_in s op k : key_of s op = Some k -> key_in (names s) k.
Proof.
  assert (G : forall i b, py_get (names s) i = Some b -> In b (names s)). { intros i b. unfold py_get. destruct (py_index (length (names s)) i); [|discriminate]. apply nth_error_In. }
  destruct op as [i|i j]; cbn [key_of].
  - destruct (py_get (names s) i) eqn:E; [|discriminate]. intros H; inversion H; subst. cbn. now apply G with i.
  - destruct (py_get (names s) i) eqn:E; [|discriminate]. destruct (py_get (names s) j) eqn:E'; [|discriminate]. intros H; inversion H; subst. cbn. split; [now apply G with i|now apply G with j].
Qed.
Lemma setOffBands_spec v s s' : setOffBands v s = Ok s' -> exists b, s' = with_offbands s b /\ (b = None <-> v = None) /\ (forall l, b = Some l -> Forall (key_in (names s)) l).
Proof.
  unfold setOffBands. destruct v as [l|].
  - destruct (read_offs s l) as [ops| |]; try discriminate. destruct (all_some (map (key_of s) ops)) as [ks|] eqn:E; [|discriminate]. intros H; inversion H; subst. exists (Some ks). split; [reflexivity|]. split; [split; discriminate|]. intros l' L; inversion L; subst l'.
    apply all_some_map in E. clear - E. induction E; constructor; trivial. now apply key_of_in with x.
  - intros H; inversion H; subst. exists None. split; [reflexivity|]. split; [split; reflexivity|discriminate].
Qed.
Lemma wf_with_offbands s b : wf s -> (forall l, b = Some l -> Forall (key_in (names s)) l) -> wf (with_offbands s b).
Proof. intros [] B. constructor; trivial. discriminate. Qed.
(** the offset bands survive being written and read again *)
Lemma reread s l : Forall (key_in (names s)) l -> exists ops, read_offs s (map (fun k => match k with KBand b => OStr [b] | KColor a b => OStr [a; b] end) l) = Ok ops /\ all_some (map (key_of s) ops) = Some l.
Proof.
  induction 1 as [|k l K F IH]; [now exists []|]. destruct IH as (ops & R & A). cbn [map read_offs].
  assert (Z : forall b, In b (names s) -> exists i, zindex s b = Ok i /\ py_get (names s) i = Some b).
  { intros b B. destruct (index_in _ _ B) as [i I]. exists (Z.of_nat i). unfold zindex. rewrite I. split; [reflexivity|]. rewrite py_get_nat. now apply index_nth. }
  destruct k as [b|a b]; cbn [read_off key_in] in *.
  - destruct (Z b K) as (i & -> & G). rewrite R. exists (OpOne i :: ops). split; [reflexivity|]. cbn [map key_of all_some]. now rewrite G, A.
  - destruct K as [Ka Kb]. destruct (Z a Ka) as (i & -> & Gi). destruct (Z b Kb) as (j & -> & Gj). rewrite R. exists (OpTwo i j :: ops). split; [reflexivity|]. cbn [map key_of all_some]. now rewrite Gi, Gj, A.
Qed.
Lemma finish_eq s d m n : (forall l, offbands s = Some l -> Forall (key_in (names s)) l) ->
  finish_data s d m n = Cmd (names s) (fid s) (nfid s) (fidnames s) (dmod s) (Some d) m n (cen s) None None (dgrp s) None (offbands s) None (locw s).
Proof.
  intros W. unfold finish_data. set (s1 := Cmd (names s) (fid s) (nfid s) (fidnames s) (dmod s) (Some d) m n _ _ _ _ _ _ _ _).
  assert (E : setOffBands (getOffBands s1) s1 = Ok (with_offbands s1 (offbands s))).
  { unfold setOffBands, getOffBands. cbn [offbands s1]. destruct (offbands s) as [l|] eqn:O; [|reflexivity]. cbn [option_map]. destruct (reread s1 l) as (ops & R & A); [now apply W|]. now rewrite R, A. }
  rewrite E. reflexivity.
Qed.
Lemma index_bound b l i : index b l = Some i -> (i < length l)%nat. Proof. intros H. now apply index_nth in H. Qed.
Lemma setData_wf known v s s' : wf s -> good (CData v) -> setData known v s = Ok s' -> wf s' /\ dat s' <> None.
Proof.
  intros W G H. unfold setData in H.
  assert (K : forall d m n, length d = length (names s) -> (forall r, In (Some r) d -> length r = n) -> length m = length d -> (forall i, nth i m false = true -> nth i d None <> None) -> wf (finish_data s d m n) /\ dat (finish_data s d m n) <> None).
  { intros d m n L R LM MD. rewrite finish_eq by apply (wf_off s W). destruct W. split; [|discriminate]. constructor; cbn [names fid nfid offbands offws locs dnames dat nd]; trivial; try discriminate.
    - intros d' E; inversion E; subst. now split.
    - intros d' b E. inversion E; subst d'. unfold dmasked, drow. cbn [names dmask dat]. destruct (index b (names s)) as [i|]; [|discriminate]. apply MD. }
  destruct v as [rows|items].
  - revert H; destruct (Nat.eqb_spec (length rows) (length (names s))) as [L|]; [|discriminate]; intros H. inversion H; subst. apply K.
    + now rewrite map_length.
    + intros r I. apply in_map_iff in I. destruct I as (r' & E & I). inversion E; subst. destruct G as [n F]. rewrite Forall_forall in F. rewrite (F _ I). destruct rows as [|r0 rows]; [destruct I|]. symmetry. apply F. now left.
    + now rewrite !map_length.
    + intros i. clear. revert i. induction rows as [|r rows IH]; intros [|i]; cbn; try discriminate. apply IH.
  - destruct (to_dicts known (map fst items) (map snd items)) as [d| |] eqn:D; try discriminate. set (cols := map _ (names s)) in H. destruct (find _ cols) as [[r|]|] eqn:FN; try discriminate. inversion H; subst.
    destruct G as [n F]. pose proof (rect_dicts _ _ _ _ F D) as RD.
    assert (R : forall r, In (Some r) cols -> length r = n). { intros r' I. unfold cols in I. apply in_map_iff in I. destruct I as (b & E & _). destruct (lookup b d) as [[x []]|] eqn:Lk; inversion E; subst. now apply (RD b r' true). }
    apply find_some in FN. destruct FN as [I _]. apply K.
    + unfold cols. now rewrite map_length.
    + intros r' I'. rewrite (R _ I'), (R _ I). reflexivity.
    + now rewrite map_length.
    + intros i. clear. revert i. induction cols as [|c cols IH]; intros [|i]; cbn; try discriminate; [destruct c; [discriminate|discriminate]|apply IH].
Qed.
Lemma step_wf known s o : wf s -> good o -> wf (fst (step known s o)).
Proof.
  intros W G. destruct o; cbn [step fst].
  - unfold getOffsets. destruct (dat s); trivial. destruct (offsets s); trivial. destruct (calculate s); trivial. now apply wf_with_offsets.
  - now apply wf_with_offsets.
  - destruct W. constructor; trivial.
  - destruct W. constructor; trivial.
  - unfold attempt. destruct (setOffWs v s) as [s'| |] eqn:E; trivial. unfold setOffWs in E. destruct v as [w|].
    + destruct (offbands s) as [b|] eqn:O; [|destruct (Nat.eqb _ _); discriminate]. revert E; destruct (Nat.eqb_spec (length w) (length b)); [|discriminate]; intros E. inversion E; subst. destruct W. constructor; cbn [names fid nfid offbands offws locs dnames dat nd]; trivial; [intros l Q; inversion Q; subst; now apply wf_off0|intros w' Q; inversion Q; subst; eexists; split; [reflexivity|trivial]].
    + inversion E; subst. destruct W. constructor; trivial. discriminate.
  - unfold attempt. destruct (setOffBands v s) as [s'| |] eqn:E; trivial. destruct (setOffBands_spec _ _ _ E) as (b & -> & _ & B). now apply wf_with_offbands.
  - unfold attempt. destruct (setData known v s) as [s'| |] eqn:E; trivial. now apply (setData_wf known v s s').
  - unfold attempt. destruct (setLocs v s) as [s'| |] eqn:E; trivial. unfold setLocs in E. destruct v as [[dim l]|].
    + destruct (_ || _); [discriminate|]. revert E; destruct (Nat.eqb_spec (length l) (nd s)); [|discriminate]; intros E. inversion E; subst. destruct W. constructor; trivial. cbn [locs]. intros l' Q; inversion Q; subst. trivial.
    + inversion E; subst. destruct W. constructor; trivial. discriminate.
  - unfold attempt. destruct (setCen v s) as [s'| |] eqn:E; trivial. unfold setCen in E. destruct v as [[|x [|y [|z [|]]]]|]; try discriminate; inversion E; subst; destruct W; constructor; trivial.
  - unfold attempt. destruct (setDName v s) as [s'| |] eqn:E; trivial. unfold setDName in E. revert E; destruct (Nat.eqb_spec (length v) (nd s)); [|discriminate]; intros E. inversion E; subst. destruct W. constructor; trivial. cbn [dnames]. intros l' Q; inversion Q; subst. trivial.
  - unfold attempt. destruct (setDGrp v s) as [s'| |] eqn:E; trivial. unfold setDGrp in E. destruct v as [l|]; [destruct (Nat.eqb _ _); [|discriminate]|]; inversion E; subst; destruct W; constructor; trivial.
Qed.
Lemma run_wf known ops : forall s, wf s -> Forall good ops -> wf (run known s ops).
Proof. induction ops as [|o ops IH]; intros s W F; [trivial|]. inversion F; subst. cbn [run]. apply IH; trivial. now apply step_wf. Qed.
Lemma reach_wf known s : reach known s -> wf s.
Proof. intros (sortb & fi & fb & fn & s0 & ops & n & P & F & I & G & ->). apply run_wf; trivial. now apply (init_wf known sortb fi fb fn s0 n). Qed.

Lemma check_keys_ext s s' l : names s = names s' -> fid s = fid s' -> dmask s = dmask s' -> check_keys s l = check_keys s' l.
Proof.
  intros N F D. assert (FM : forall b, fmask s b = fmask s' b) by (intros; unfold fmask; now rewrite F). assert (DM : forall b, dmasked s b = dmasked s' b) by (intros; unfold dmasked; now rewrite N, D).
  induction l as [|k l IH]; [reflexivity|]. cbn [check_keys]. assert (check_key s k = check_key s' k) as ->. { destruct k; cbn [check_key]; now rewrite N, !FM, !DM. } now rewrite IH.
Qed.
Lemma calculate_offsets s o : calculate (with_offsets s o) = calculate s.
Proof. unfold calculate. cbn [offbands with_offsets]. destruct (offbands s) as [l|]; [|reflexivity]. now rewrite (check_keys_ext (with_offsets s o) s l). Qed.
Lemma calculate_names s dn dg : calculate (Cmd (names s) (fid s) (nfid s) (fidnames s) (dmod s) (dat s) (dmask s) (nd s) (cen s) (locs s) dn dg (offsets s) (offbands s) (offws s) (locw s)) = calculate s.
Proof. unfold calculate. set (s' := Cmd _ _ _ _ _ _ _ _ _ _ _ _ _ _ _ _). cbn [offbands s']. destruct (offbands s) as [l|]; [|reflexivity]. now rewrite (check_keys_ext s' s l). Qed.
(** ** C68: the offsets are those of the present settings *)
Inductive status := Cleared | Computed | Outdated.
(** locations, center and the removal of weights do not clear the offsets *)
Definition next (st : status) (o : cop) (ok : bool) : status :=
  if ok then match o with
    | CGet => match st with Cleared => Computed | x => x end
    | CClear | CDMod _ | CLocW _ | CWs (Some _) | CBands _ | CData _ => Cleared
    | CWs None | CLocs _ | CCen _ => match st with Computed => Outdated | x => x end
    | CNames _ | CGrp _ => st
    end
  else st.
Fixpoint history (known : name -> bool) (s : cmd) (st : status) (l : list cop) : status := match l with [] => st | o :: l => history known (fst (step known s o)) (next st o (snd (step known s o))) l end.
Definition coherent (s : cmd) (st : status) : Prop :=
  match st with Cleared => offsets s = None | Computed => exists o, offsets s = Some o /\ dat s <> None /\ calculate s = Ok o | Outdated => offsets s <> None /\ dat s <> None end.
Lemma step_coherent known s st o : wf s -> coherent s st -> coherent (fst (step known s o)) (next st o (snd (step known s o))).
Proof.
  intros W C. destruct o; cbn [step fst snd].
  - unfold getOffsets. destruct (dat s) as [d|] eqn:D; cbn [fst snd next]; [|exact C]. destruct (offsets s) as [o|] eqn:O; cbn [fst snd next].
    + destruct st; cbn [coherent] in *; [congruence|exact C|exact C].
    + destruct st; cbn [coherent] in *; [|destruct C as (x & Q & _); congruence|destruct C; congruence]. destruct (calculate s) as [o| |] eqn:K; cbn [fst snd next coherent]; trivial. exists o. split; [reflexivity|]. split; [cbn; congruence|]. now rewrite calculate_offsets.
  - reflexivity.
  - reflexivity.
  - reflexivity.
  - unfold setOffWs. destruct v as [w|].
    + destruct (offbands s) as [b|] eqn:O; [|destruct (Nat.eqb _ _); exact C]. destruct (Nat.eqb _ _); [reflexivity|exact C].
    + cbn [attempt fst snd next]. destruct st; cbn [coherent] in *; trivial. destruct C as (o & O & D & _). split; [cbn; congruence|trivial].
  - destruct (setOffBands v s) as [s'| |] eqn:E; cbn [attempt fst snd next]; trivial. destruct (setOffBands_spec _ _ _ E) as (b & -> & _). reflexivity.
  - destruct (setData known v s) as [s'| |] eqn:E; cbn [attempt fst snd next]; trivial. cbn [coherent]. unfold setData in E. destruct v as [rows|items].
    + destruct (Nat.eqb _ _); inversion E; subst. now rewrite finish_eq by apply (wf_off s W).
    + destruct (to_dicts _ _ _); try discriminate. destruct (find _ _) as [[|]|]; inversion E; subst. now rewrite finish_eq by apply (wf_off s W).
  - destruct (setLocs v s) as [s'| |] eqn:E; cbn [attempt fst snd next]; trivial. assert (Q : offsets s' = offsets s /\ dat s' = dat s). { unfold setLocs in E. destruct v as [[dim l]|]; [destruct (_ || _); [discriminate|]; destruct (Nat.eqb _ _); [|discriminate]|]; inversion E; subst; now split. }
    destruct Q as [Q1 Q2]. destruct st; cbn [coherent] in *; rewrite Q1, ?Q2; trivial. destruct C as (o & O & D & _). split; congruence.
  - destruct (setCen v s) as [s'| |] eqn:E; cbn [attempt fst snd next]; trivial. assert (Q : offsets s' = offsets s /\ dat s' = dat s). { unfold setCen in E. destruct v as [[|x [|y [|z [|]]]]|]; try discriminate; inversion E; subst; now split. }
    destruct Q as [Q1 Q2]. destruct st; cbn [coherent] in *; rewrite Q1, ?Q2; trivial. destruct C as (o & O & D & _). split; congruence.
  - unfold setDName. destruct (Nat.eqb _ _); cbn [attempt fst snd next]; trivial. destruct st; cbn [coherent] in *; trivial. rewrite calculate_names. exact C.
  - unfold setDGrp. destruct v as [l|]; [destruct (Nat.eqb _ _)|]; cbn [attempt fst snd next]; trivial; destruct st; cbn [coherent] in *; trivial; rewrite calculate_names; exact C.
Qed.
(** after any history, unless locations, center or weights were changed without anything being cleared since the offsets were computed, getOffsets returns what it would compute now *)
Theorem C68_current : forall known sortb fiducial fbands fn s0 ops n, (forall l, Permutation (sortb l) l) -> Forall (fun r : row => length r = n) fiducial -> init known sortb fiducial fbands fn = Ok s0 -> Forall good ops ->
  history known s0 Cleared ops <> Outdated -> let s := run known s0 ops in snd (getOffsets s) = snd (getOffsets (clearOffsets s)).
Proof.
  intros known sortb fi fb fn s0 ops n P F I G N s.
  assert (C : coherent s (history known s0 Cleared ops)).
  { assert (W0 : wf s0) by now apply (init_wf known sortb fi fb fn s0 n). assert (C0 : coherent s0 Cleared). { unfold init in I. destruct (to_dicts known fb fi); try discriminate. destruct fn; [destruct (np_all_eq _ _); [|discriminate]|]; inversion I; subst; reflexivity. }
    unfold s. clear N I. revert s0 W0 C0 s. generalize Cleared as st. induction ops as [|o ops IH]; intros st s0 W0 C0; [trivial|]. inversion G; subst. cbn [run history]. apply IH; trivial; [now apply step_wf|now apply step_coherent]. }
  assert (CE : calculate (clearOffsets s) = calculate s) by apply calculate_offsets. unfold getOffsets. rewrite CE. cbn [dat clearOffsets with_offsets offsets]. destruct (dat s) as [d|] eqn:D; [|reflexivity]. destruct (history known s0 Cleared ops); [|destruct C as (o & O & _ & K)|congruence].
  - cbn [coherent] in C. rewrite C. now destruct (calculate s).
  - rewrite O. now rewrite K.
Qed.
