(** * SedProof: C132, spectral energy distributions *)
From Coq Require Import List ZArith Lia Bool Arith.
From Verif Require Import PyBase PubModel FieldModel FieldProofs FieldProps SedModel.
Import ListNotations.

Section Proofs.
Context {A : Type}.
Variable int_src : Z -> nat.
Notation sed := (@sed A).
Notation sobj := (@sobj A).
Notation fval := (@fval sobj).

(** ** Specification *)
Inductive op := OMask (a : marg) | OUnmask (a : marg) | OUnmaskAll | OUnit (u : option nat) | OField (o : @fop sobj).
Definition step (s : sed) (o : op) : sed :=
  match o with OMask a => fst (mask s a) | OUnmask a => fst (unmask s a) | OUnmaskAll => unmaskAll s | OUnit u => fst (setUnit s u) | OField o => changeSed int_src s o end.
Definition run (s : sed) (ops : list op) : sed := fold_left step ops s.
(** value number i of the field is shown *)
Definition masked (s : sed) (i : nat) : Prop := In (Z.of_nat i) (s_masked s).
(** [sel] are the values at the increasing positions [ps] *)
Definition at_positions (l : list fval) (ps : list nat) (sel : list fval) : Prop := Forall2 (fun p v => nth_error l p = Some v) ps sel.
Definition increasing (ps : list nat) : Prop := forall i j p q, i < j -> nth_error ps i = Some p -> nth_error ps j = Some q -> p < q.

(** ** Lemmas *)
Lemma inmask_spec m z : inmask m z = true <-> In z m.
Proof. unfold inmask. rewrite existsb_exists. split; [intros (x & I & E); apply Z.eqb_eq in E; now subst|intros I; exists z; split; [trivial|apply Z.eqb_refl]]. Qed.
Lemma run_app s a b : run s (a ++ b) = run (run s a) b. Proof. apply fold_left_app. Qed.
Lemma Forall2_weaken {X Y} (P Q : X -> Y -> Prop) l m : (forall x y, P x y -> Q x y) -> Forall2 P l m -> Forall2 Q l m.
Proof. intros H F. induction F; constructor; auto. Qed.
Lemma pick_positions m want (l : list fval) : forall i, exists ps, map v_src (pick_from m want i l) = map v_src (pick_from m want i l) /\
  Forall2 (fun p v => exists q, p = i + q /\ nth_error l q = Some v) ps (pick_from m want i l) /\
  (forall a b p q, a < b -> nth_error ps a = Some p -> nth_error ps b = Some q -> p < q) /\
  (forall p, In p ps <-> exists q v, p = i + q /\ nth_error l q = Some v /\ is_spec (v_val v) = want /\ ~ In (Z.of_nat p) m).
Proof.
  induction l as [|v r IH]; intros i.
  - exists []. split; [reflexivity|]. split; [constructor|]. split; [intros [|a]; discriminate|]. intros p. split; [intros []|intros (q & v & _ & E & _); destruct q; discriminate].
  - destruct (IH (S i)) as (ps & _ & F & Inc & M). cbn [pick_from].
    assert (F' : Forall2 (fun p u => exists q, p = i + q /\ nth_error (v :: r) q = Some u) ps (pick_from m want (S i) r)).
    { revert F. apply Forall2_weaken. intros p u (q & E & N). exists (S q). split; [lia|exact N]. }
    assert (Lo : forall p, In p ps -> S i <= p) by (intros p P; apply M in P; destruct P as (q & u & E & _); lia).
    destruct (Bool.eqb (is_spec (v_val v)) want && negb (inmask m (Z.of_nat i))) eqn:E.
    + apply andb_true_iff in E. destruct E as (E1 & E2). apply eqb_prop in E1. apply negb_true_iff in E2. exists (i :: ps). split; [reflexivity|]. split; [constructor; [exists 0; split; [lia|reflexivity]|exact F']|]. split.
      * intros [|a] [|b] p q L P Q; try lia; cbn in P, Q; [injection P as <-; apply nth_error_In in Q; apply Lo in Q; lia|]. apply (Inc a b p q); trivial. lia.
      * intros p. split.
        -- intros [<-|P]; [exists 0, v; split; [lia|]; split; [reflexivity|]; split; [exact E1|]; intros I; apply inmask_spec in I; congruence|]. apply M in P. destruct P as (q & u & X & Y & Z). exists (S q), u. split; [lia|]. split; [exact Y|exact Z].
        -- intros ([|q] & u & X & Y & Z); [left; lia|]. right. apply M. exists q, u. split; [lia|]. split; [exact Y|exact Z].
    + exists ps. split; [reflexivity|]. split; [exact F'|]. split; [exact Inc|]. intros p. rewrite M. split.
      * intros (q & u & X & Y & Z). exists (S q), u. split; [lia|]. split; [exact Y|exact Z].
      * intros ([|q] & u & X & Y & Z1 & Z2).
        -- exfalso. cbn in Y. injection Y as <-. rewrite Nat.add_0_r in X. subst p. rewrite Z1, eqb_reflx in E. cbn in E. apply negb_false_iff in E. apply inmask_spec in E. contradiction.
        -- exists q, u. split; [lia|]. split; [exact Y|]. split; trivial.
Qed.

(** ** Theorems *)
(** C132: specs and phots (with specsources and photsources) are the Spectrum and the PhotObservation objects whose positions are not masked, in order *)
Theorem C132_shown : forall (s : sed) (want : bool), exists ps sel,
  at_positions (vals (s_vals s)) ps sel /\ increasing ps /\
  (forall p, In p ps <-> exists v, nth_error (vals (s_vals s)) p = Some v /\ is_spec (v_val v) = want /\ ~ masked s p) /\
  (if want then specs s = map v_val sel /\ specsources s = map v_src sel else phots s = map v_val sel /\ photsources s = map v_src sel).
Proof.
  intros s want. destruct (pick_positions (s_masked s) want (vals (s_vals s)) 0) as (ps & _ & F & Inc & M). exists ps, (pick_from (s_masked s) want 0 (vals (s_vals s))). split; [|split; [exact Inc|split]].
  - revert F. apply Forall2_weaken. intros p v (q & -> & N). exact N.
  - intros p. rewrite M. split; [intros (q & v & -> & X); exists v; exact X|intros (v & X); exists p, v; split; [reflexivity|exact X]].
  - destruct want; split; reflexivity.
Qed.
(** C132: mask and unmask with a position hide and show that position only; a position that is not masked is a KeyError, anything that is neither a position nor a value of the field a ValueError; values and units stay *)
Theorem C132_mask : forall (s : sed) (z : Z),
  (exists s', mask s (MInt z) = (s', Ok tt) /\ (forall y, In y (s_masked s') <-> y = z \/ In y (s_masked s)) /\ s_vals s' = s_vals s /\ s_unit s' = s_unit s) /\
  (In z (s_masked s) -> exists s', unmask s (MInt z) = (s', Ok tt) /\ (forall y, In y (s_masked s') <-> y <> z /\ In y (s_masked s)) /\ s_vals s' = s_vals s /\ s_unit s' = s_unit s) /\
  (~ In z (s_masked s) -> unmask s (MInt z) = (s, Raise KeyError)) /\
  mask s MOther = (s, Raise ValueError) /\ unmask s MOther = (s, Raise ValueError) /\
  (forall i, i < List.length (vals (s_vals s)) -> mask s (MVal i) = mask s (MInt (Z.of_nat i)) /\ unmask s (MVal i) = unmask s (MInt (Z.of_nat i))) /\
  (forall i, ~ masked (unmaskAll s) i) /\ s_vals (unmaskAll s) = s_vals s.
Proof.
  intros s z. unfold mask, unmask, mpos. split; [|split; [|split; [|split; [reflexivity|split; [reflexivity|split; [|split]]]]]].
  - eexists. split; [reflexivity|]. cbn. split; [|split; reflexivity]. intros y. destruct (inmask (s_masked s) z) eqn:E; [apply inmask_spec in E; split; [tauto|intros [->|]; trivial]|]. cbn. split; intros [->|]; auto.
  - intros I. rewrite (proj2 (inmask_spec _ _) I). eexists. split; [reflexivity|]. cbn. split; [|split; reflexivity]. intros y. rewrite filter_In, negb_true_iff, Z.eqb_neq. tauto.
  - intros N. destruct (inmask (s_masked s) z) eqn:E; [apply inmask_spec in E; contradiction|reflexivity].
  - intros i I. destruct (Nat.ltb_spec i (List.length (vals (s_vals s)))); [split; reflexivity|lia].
  - intros i [].
  - reflexivity.
Qed.
(** C132: after any history the masked positions are distinct; masking, unmasking and units do not change the values; one value per source *)
Theorem C132_history : forall ops u, Forall (fun o => match o with OField o => fop_ok o | _ => True end) ops -> let s := run (newSed u) ops in
  NoDup (s_masked s) /\ NoDup (map v_src (vals (s_vals s))) /\
  s_vals s = frun sed_type int_src empty_field (flat_map (fun o => match o with OField o => [o] | _ => [] end) ops).
Proof.
  intros ops u. induction ops as [|o ops IH] using rev_ind; intros F.
  - cbn. split; [constructor|]. split; [constructor|reflexivity].
  - apply Forall_app in F. destruct F as (F & Fo). inversion Fo as [|? ? Ho _]; subst. specialize (IH F). cbv zeta in *. rewrite run_app. cbn [run fold_left]. fold (run (newSed u) ops). set (s := run (newSed u) ops) in *. destruct IH as (N & S & E).
    assert (E' : s_vals (step s o) = frun sed_type int_src empty_field (flat_map (fun o => match o with OField o => [o] | _ => [] end) (ops ++ [o]))).
    { rewrite flat_map_app. cbn [flat_map]. rewrite app_nil_r. unfold frun. rewrite fold_left_app. fold (frun sed_type int_src empty_field (flat_map (fun o => match o with OField o => [o] | _ => [] end) ops)). rewrite <- E.
      destruct o as [a|a| |v|o]; cbn [fold_left step]; try reflexivity; [unfold mask|unfold unmask|destruct v; reflexivity]; destruct (mpos s a); try reflexivity. destruct (inmask _ _); reflexivity. }
    split; [|split; [|exact E']].
    + destruct o as [a|a| |v|o]; cbn [step]; trivial.
      * unfold mask. destruct (mpos s a) as [z|e|]; cbn [fst s_masked]; trivial. destruct (inmask (s_masked s) z) eqn:M; trivial. constructor; trivial. intros I. apply inmask_spec in I. congruence.
      * unfold unmask. destruct (mpos s a) as [z|e|]; cbn [fst s_masked]; trivial. destruct (inmask (s_masked s) z); trivial. cbn. now apply NoDup_filter.
      * constructor.
      * destruct v; trivial.
    + rewrite E'. apply (C13_unique_sources sobj sed_type int_src). exists (flat_map (fun o => match o with OField o => [o] | _ => [] end) (ops ++ [o])). split; [|reflexivity].
      apply Forall_flat_map. apply Forall_app. split; [revert F; apply Forall_impl; intros [a|a| |v|o'] H; auto|constructor; [destruct o; auto|constructor]].
Qed.
(** C132: getBand.  The value of a band is that of the first shown photometry with the band (its first entry), else that computed from the first shown spectrum that overlaps *)
Definition has_band (b : nat) (o : sobj) : Prop := match o with Phot l => In b (map (fun e => fst (fst e)) l) | Spec _ => False end.
Lemma in_phot_none asflux b (l : list (nat * A * A)) : in_phot asflux b l = None <-> ~ In b (map (fun e => fst (fst e)) l).
Proof.
  induction l as [|[[b' f] m] r IH]; cbn; [tauto|]. destruct (Nat.eqb_spec b' b) as [->|N]; [split; [discriminate|tauto]|]. rewrite IH. tauto.
Qed.
Lemma in_phot_first asflux b (l1 l2 : list (nat * A * A)) f m : ~ In b (map (fun e => fst (fst e)) l1) -> in_phot asflux b (l1 ++ (b, f, m) :: l2) = Some (if asflux then f else m).
Proof.
  induction l1 as [|[[b' f'] m'] r IH]; cbn; [now rewrite Nat.eqb_refl|]. intros N. destruct (Nat.eqb_spec b' b) as [->|_]; [tauto|]. apply IH. tauto.
Qed.
Lemma from_phots_skip asflux b (l1 l2 : list sobj) : (forall o, In o l1 -> ~ has_band b o) -> from_phots asflux b (l1 ++ l2) = from_phots asflux b l2.
Proof.
  induction l1 as [|[i|p] r IH]; intros H; cbn; trivial; [apply IH; intros o O; apply H; now right|]. rewrite (proj2 (in_phot_none asflux b p)) by (apply (H (Phot p)); now left). apply IH. intros o O. apply H. now right.
Qed.
Theorem C132_getBand : forall overlap compute (s : sed) asflux b,
  (forall before after l1 l2 f m, phots s = before ++ Phot (l1 ++ (b, f, m) :: l2) :: after -> (forall o, In o before -> ~ has_band b o) -> ~ In b (map (fun e => fst (fst e)) l1) ->
     bandValue overlap compute s asflux b = Ok (if asflux then f else m)) /\
  (forall before i after, (forall o, In o (phots s) -> ~ has_band b o) -> specs s = before ++ Spec i :: after -> (forall j, In (Spec j) before -> overlap b j = false) -> overlap b i = true ->
     bandValue overlap compute s asflux b = Ok (compute asflux b i)).
Proof.
  intros overlap compute s asflux b. unfold bandValue. split.
  - intros before after l1 l2 f m E H N. rewrite E, from_phots_skip by trivial. cbn. now rewrite in_phot_first.
  - intros before i after H E Hb O. rewrite <- (app_nil_r (phots s)), from_phots_skip by trivial. cbn [from_phots]. rewrite E. clear E.
    assert (X : from_specs overlap compute asflux b (before ++ Spec i :: after) = Some (compute asflux b i)); [|now rewrite X].
    induction before as [|[j|p] r IH]; cbn; [now rewrite O| |]; [rewrite (Hb j) by (now left)|]; apply IH; intros j' J; apply Hb; now right.
Qed.
(** several bands: each its value, in order; one band a scalar; asdict a dictionary with the names; a failing band fails all *)
Theorem C132_bands : forall overlap compute (s : sed) asflux bs vs,
  (Forall2 (fun b v => bandValue overlap compute s asflux b = Ok v) bs vs ->
     getBand overlap compute s bs asflux true = Ok (BDict (combine bs vs)) /\ getBand overlap compute s bs asflux false = Ok (match vs with [v] => BScalar v | _ => BList vs end)) /\
  (forall b e, In b bs -> bandValue overlap compute s asflux b = Raise e -> forall asdict r, getBand overlap compute s bs asflux asdict <> Ok r).
Proof.
  intros overlap compute s asflux bs vs. unfold getBand. split.
  - intros F. assert (E : bandValues overlap compute s asflux bs = Ok vs) by (induction F as [|b v bs' vs' H F IH]; cbn; [reflexivity|rewrite H; cbn; rewrite IH; reflexivity]). rewrite E. split; reflexivity.
  - intros b e I E asdict r. assert (N : forall l, bandValues overlap compute s asflux bs <> Ok l).
    { induction bs as [|b' bs' IH]; [destruct I|]. intros l. cbn. destruct I as [->|I]; [rewrite E; discriminate|]. destruct (bandValue overlap compute s asflux b'); cbn; try discriminate. specialize (IH I). destruct (bandValues overlap compute s asflux bs') as [l'|e'|]; cbn; try discriminate. now destruct (IH l'). }
    destruct (bandValues overlap compute s asflux bs) as [l|e'|]; cbn; try discriminate. now destruct (N l).
Qed.

(** ** Refuted *)
(** a band found nowhere: TypeError, not the ValueError of the documentation *)
Theorem C132_nowhere_refuted : forall overlap compute (s : sed) asflux b, (forall o, In o (phots s) -> ~ has_band b o) -> (forall i, In (Spec i) (specs s) -> overlap b i = false) -> bandValue overlap compute s asflux b = Raise TypeError.
Proof.
  intros overlap compute s asflux b H O. unfold bandValue. rewrite <- (app_nil_r (phots s)), from_phots_skip by trivial. cbn [from_phots].
  assert (X : from_specs overlap compute asflux b (specs s) = None); [|now rewrite X]. induction (specs s) as [|[j|p] r IH]; cbn; trivial; [rewrite O by (now left)|]; apply IH; intros i I; apply O; now right.
Qed.
(** a mask belongs to a position, not to a value: after another value is made current, the masked value is shown and the other hidden; mask(source name) is refused *)
Theorem C132_mask_moves_refuted : let v i : fval := {| v_src := i; v_val := Spec i; v_errs := []; v_der := None |} in
  let s := run (newSed 0) [OField (FAppend (IVal (v 1))); OField (FAppend (IVal (v 2))); OMask (MInt 0)] in
  specs s = [Spec 2] /\ specs (step s (OField (FCurr (CKey (KSource 2))))) = [Spec 1] /\ snd (mask s MOther) = Raise ValueError.
Proof. vm_compute. repeat split. Qed.
(** negative positions mask nothing *)
Theorem C132_negative_refuted : forall (s : sed) z, (z < 0)%Z -> snd (mask s (MInt z)) = Ok tt /\ specs (fst (mask s (MInt z))) = specs s /\ phots (fst (mask s (MInt z))) = phots s.
Proof.
  intros s z Hz. unfold specs, phots, mask, mpos. cbn [fst snd s_masked s_vals]. split; [reflexivity|]. destruct (inmask (s_masked s) z); [split; reflexivity|].
  assert (X : forall want (l : list fval) i, pick_from (z :: s_masked s) want i l = pick_from (s_masked s) want i l).
  { induction l as [|v r IH]; intros i; cbn; trivial. rewrite IH. unfold inmask. cbn. destruct (Z.eqb_spec (Z.of_nat i) z); [lia|]. reflexivity. }
  now rewrite !X.
Qed.
(** assigning units changes no object *)
Lemma units_change_nothing : forall (s : sed) u, specs (fst (setUnit s (Some u))) = specs s /\ s_unit (fst (setUnit s (Some u))) = u.
Proof. intros s u. split; reflexivity. Qed.
End Proofs.
Example ex_sed : let v i o := {| v_src := i; v_val := o; v_errs := []; v_der := None |} in
  let s := run (fun _ => 0) (newSed 0) [OField (FAppend (IVal (v 1 (Spec 7)))); OField (FAppend (IVal (v 2 (Phot [(4, 10, 20)])))); OField (FAppend (IVal (v 3 (Phot [(4, 11, 21)])))); OMask (MInt 1)] in
  phots s = [Phot [(4, 11, 21)]] /\ specs s = [Spec 7] /\ bandValue (fun _ _ => true) (fun _ _ _ => 0) s true 4 = Ok 11 /\ getBand (fun _ _ => true) (fun _ _ i => i) s [4; 5] true false = Ok (BList [11; 7]).
Proof. vm_compute. repeat split. Qed.
