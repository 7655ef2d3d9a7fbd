(** * CatalogForest: every history keeps the catalog a forest *)
From Coq Require Import List ZArith Lia Bool.
From stdpp Require Import gmap relations.
From Verif Require Import PyBase CatalogModel CatalogSpec.
Import ListNotations.

Lemma nodup_std {A} (l : list A) : List.NoDup l <-> NoDup l.
Proof. symmetry. apply NoDup_ListNoDup. Qed.

Lemma in_others n l c : In c (others n l) <-> In c l /\ c <> n.
Proof.
  unfold others. rewrite filter_In. destruct (Nat.eqb_spec c n); cbn; intuition congruence.
Qed.
Lemma others_notin n l : ~ In n l -> others n l = l.
Proof.
  induction l as [|c r IH]; cbn; intros H; [reflexivity|].
  destruct (Nat.eqb_spec c n) as [->|Hn]; [exfalso; auto|]. cbn. f_equal. auto.
Qed.
Lemma others_nodup n l : NoDup l -> NoDup (others n l).
Proof. rewrite <- !nodup_std. apply List.NoDup_filter. Qed.

Lemma find_index_others n l : NoDup l -> In n l ->
  exists i, find_index n l = Some i /\ remove_at i l = others n l /\ i < length l.
Proof.
  induction l as [|c r IH]; intros Hn Hin; [destruct Hin|].
  cbn. inversion Hn as [|? ? Hc Hr]; subst. destruct (Nat.eqb_spec c n) as [->|Hcn].
  - exists 0. split; [reflexivity|]. split; [|lia]. unfold remove_at. cbn.
    symmetry. apply others_notin. intros H. apply Hc. now apply elem_of_list_In.
  - destruct Hin as [->|Hin]; [congruence|]. destruct (IH Hr Hin) as (i & E & E2 & L).
    exists (S i). rewrite E. split; [reflexivity|]. split; [|lia].
    unfold remove_at in *. cbn [firstn skipn]. cbn [app negb]. f_equal. exact E2.
Qed.
Lemma find_index_app n l l' i : find_index n l = Some i -> find_index n (l ++ l') = Some i.
Proof.
  revert i; induction l as [|c r IH]; intros i H; [discriminate|]. cbn in *.
  destruct (Nat.eqb c n); [exact H|]. destruct (find_index n r) as [j|]; [|discriminate].
  rewrite (IH j) by reflexivity. exact H.
Qed.
Lemma remove_at_app {A} i (l l' : list A) : i < length l -> remove_at i (l ++ l') = remove_at i l ++ l'.
Proof.
  intros H. unfold remove_at. rewrite firstn_app, skipn_app.
  replace (i - length l) with 0 by lia. replace (S i - length l) with 0 by lia. cbn.
  now rewrite app_nil_r, <- app_assoc.
Qed.

(** ** the cycle check *)
Lemma size_nodup (h : heap) (l : list nat) : NoDup l -> (forall n, In n l -> is_Some (h !! n)) -> length l <= size h.
Proof.
  intros Hn Hd. rewrite <- (size_dom h), <- (size_list_to_set (C:=gset nat) l) by auto.
  apply subseteq_size. intros x Hx. apply elem_of_list_to_set, elem_of_list_In in Hx.
  apply elem_of_dom. auto.
Qed.

Lemma parent_fun h n p q : parent_of h n p -> parent_of h n q -> p = q.
Proof. intros (x & E & E1) (y & E2 & E3). congruence. Qed.
Lemma parent_dom h n p : forest h -> parent_of h n p -> is_Some (h !! p).
Proof. intros (H & _) Hp. apply H in Hp. destruct Hp as (y & E & _). now exists y. Qed.
Lemma rtc_tc_step h a b : rtc (parent_of h) a b -> a = b \/ tc (parent_of h) a b.
Proof. intros H. destruct H as [|a c b Hs Hr]; [now left|right]. eapply tc_rtc_r; [apply tc_once; eauto|auto]. Qed.

Lemma cycleCheck_spec_gen h src (HF : forest h) : forall fuel v l, is_Some (h !! v) -> NoDup l ->
  (forall x, In x l -> is_Some (h !! x) /\ tc (parent_of h) x v) ->
  size h < length l + fuel ->
  (cycleCheck fuel h v src = Raise CycleError /\ rtc (parent_of h) v src) \/
  (cycleCheck fuel h v src = Ok tt /\ ~ rtc (parent_of h) v src).
Proof.
  induction fuel as [|fuel IH]; intros v l Hv Hn Hl Hs.
  - exfalso. assert (length l <= size h); [|lia]. apply size_nodup; auto. intros x Hx. now apply Hl.
  - cbn [cycleCheck]. destruct (Nat.eqb_spec src v) as [->|Hsv].
    + left. split; [reflexivity|apply rtc_refl].
    + destruct Hv as (x & Ex). rewrite Ex. destruct (n_parent x) as [p|] eqn:Ep.
      * assert (Hvp : parent_of h v p) by (exists x; auto).
        destruct (IH p (v :: l)) as [(E & Hr)|(E & Hr)].
        { now apply (parent_dom h v p). }
        { constructor; auto. intros Hin. apply elem_of_list_In in Hin. apply Hl in Hin.
          destruct HF as (_ & _ & Ha). now apply (Ha v). }
        { intros y [<-|Hy]; [split; [now exists x|now apply tc_once]|].
          destruct (Hl y Hy) as (H1 & H2). split; auto. eapply tc_r; eauto. }
        { cbn. lia. }
        -- left. split; auto. eapply rtc_l; eauto.
        -- right. split; auto. intros Hvs. inversion Hvs as [|a b c Hab Hbc]; subst; [congruence|].
           apply Hr. rewrite (parent_fun h v p b) by auto. exact Hbc.
      * right. split; [reflexivity|]. intros Hvs. inversion Hvs as [|a b c Hab Hbc]; subst; [congruence|].
        destruct Hab as (y & E & E'). congruence.
Qed.
Lemma cycleCheck_spec h v src : forest h -> is_Some (h !! v) ->
  (cycleCheck (enough h) h v src = Raise CycleError /\ within h src v) \/
  (cycleCheck (enough h) h v src = Ok tt /\ ~ within h src v).
Proof.
  intros HF Hv. apply (cycleCheck_spec_gen h src HF (enough h) v []); auto.
  - constructor.
  - intros x [].
Qed.

(** ** effect of setParent *)
Lemma setParent_spec h n val x : forest h -> h !! n = Some x ->
  (match val with
   | None => True
   | Some v => (exists y, h !! v = Some y /\ n_kind y <> KAction) /\ ~ within h n v
   end) ->
  exists h', setParent (enough h) n val h = (h', Ok tt) /\
    forall m, h' !! m = option_map (reparented n val m) (h !! m).
Proof.
  intros HF Ex Hval. pose proof HF as (HL & HN & HA).
  assert (Hnn : forall p, parent_of h n p -> p <> n).
  { intros p Hp ->. apply (HA n). now apply tc_once. }
  (* the heap on which detach_and_set works *)
  set (h1 := match val with
             | None => h
             | Some v => match h !! v with Some y => <[v := with_children (n_children y ++ [n]) y]> h | None => h end
             end).
  assert (Hset : setParent (enough h) n val h = detach_and_set n val h1).
  { unfold setParent, h1. rewrite Ex. destruct val as [v|]; [|reflexivity].
    destruct Hval as ((y & Ey & Hk) & Hw). rewrite Ey.
    destruct (cycleCheck_spec h v n HF) as [(_ & Hw')|(-> & _)]; [now exists y|contradiction|].
    destruct (n_kind y); [reflexivity|reflexivity|congruence]. }
  assert (Hvn : forall v, val = Some v -> v <> n).
  { intros v -> ->. destruct Hval as (_ & Hw). apply Hw. apply rtc_refl. }
  assert (H1 : forall m, h1 !! m = option_map (fun z => match val with
               | Some v => if Nat.eqb m v then with_children (n_children z ++ [n]) z else z | None => z end) (h !! m)).
  { intros m. unfold h1. destruct val as [v|]; [|destruct (h !! m); reflexivity].
    destruct Hval as ((y & Ey & _) & _). rewrite Ey. destruct (Nat.eqb_spec m v) as [->|Hmv].
    - rewrite lookup_insert, Ey. reflexivity.
    - rewrite lookup_insert_ne by auto. destruct (h !! m); reflexivity. }
  assert (Hn1 : h1 !! n = Some x).
  { rewrite H1, Ex. cbn. destruct val as [v|]; [|reflexivity].
    destruct (Nat.eqb_spec n v) as [->|]; [exfalso; now apply (Hvn v)|reflexivity]. }
  assert (Hrest : forall m z, h !! m = Some z -> m <> n -> n_parent x <> Some m ->
      reparented n val m z = match val with
               | Some v => if Nat.eqb m v then with_children (n_children z ++ [n]) z else z | None => z end).
  { intros m z Ez Hmn Hpm.
    assert (Hnin : ~ In n (n_children z)).
    { intros Hin. assert (Hc : child_of h m n) by (exists z; auto). apply HL in Hc.
      destruct Hc as (x' & E' & E''). congruence. }
    unfold reparented. rewrite others_notin by auto. destruct (Nat.eqb_spec m n); [congruence|].
    destruct val as [v|]; [destruct (Nat.eqb_spec m v)|]; unfold with_children; rewrite ?app_nil_r; destruct z; reflexivity. }
  assert (Hself : reparented n val n x = with_parent val x).
  { assert (Hnin : ~ In n (n_children x)).
    { intros Hin. assert (Hc : child_of h n n) by (exists x; auto). apply HL in Hc. now apply (Hnn n). }
    unfold reparented. rewrite others_notin by auto. rewrite Nat.eqb_refl.
    destruct val as [v|]; [destruct (Nat.eqb_spec n v) as [->|]; [exfalso; now apply (Hvn v)|]|];
      rewrite app_nil_r; reflexivity. }
  unfold detach_and_set in Hset. rewrite Hn1 in Hset. destruct (n_parent x) as [p|] eqn:Ep.
  - assert (Hpn : parent_of h n p) by (exists x; auto). pose proof (Hnn p Hpn) as Hpne.
    apply HL in Hpn. destruct Hpn as (y & Ey & Hin).
    pose proof (HN p y Ey) as Hnd. destruct (find_index_others n (n_children y) Hnd Hin) as (i & Ei & Er & Li).
    rewrite (H1 p), Ey in Hset. cbn [option_map] in Hset.
    set (y1 := match val with Some v => if p =? v then with_children (n_children y ++ [n]) y else y | None => y end) in *.
    assert (Hy1 : exists i', find_index n (n_children y1) = Some i' /\
              with_children (remove_at i' (n_children y1)) y1 = reparented n val p y).
    { exists i. unfold y1, reparented. destruct (Nat.eqb_spec p n); [congruence|].
      destruct val as [v|]; [destruct (Nat.eqb_spec p v)|]; cbn.
      - split; [now apply find_index_app|]. rewrite remove_at_app by auto. rewrite Er. reflexivity.
      - split; [exact Ei|]. rewrite Er, app_nil_r. destruct y; reflexivity.
      - split; [exact Ei|]. rewrite Er, app_nil_r. destruct y; reflexivity. }
    destruct Hy1 as (i' & Ei' & Er'). rewrite Ei', Er' in Hset.
    rewrite lookup_insert_ne, Hn1 in Hset by auto.
    eexists. split; [exact Hset|]. intros m.
    destruct (Nat.eq_dec m n) as [->|Hmn].
    + rewrite lookup_insert, Ex. cbn. now rewrite Hself.
    + rewrite lookup_insert_ne by auto. destruct (Nat.eq_dec m p) as [->|Hmp].
      * rewrite lookup_insert, Ey. reflexivity.
      * rewrite lookup_insert_ne by auto. rewrite H1. destruct (h !! m) as [z|] eqn:Ez; [|reflexivity].
        cbn. f_equal. symmetry. apply Hrest; congruence.
  - eexists. split; [exact Hset|]. intros m. destruct (Nat.eq_dec m n) as [->|Hmn].
    + rewrite lookup_insert, Ex. cbn. now rewrite Hself.
    + rewrite lookup_insert_ne by auto. rewrite H1. destruct (h !! m) as [z|] eqn:Ez; [|reflexivity].
      cbn. f_equal. symmetry. apply Hrest; congruence.
Qed.

Lemma setParent_cases h n val : forest h ->
  let '(h', r) := setParent (enough h) n val h in
  (exists x, h !! n = Some x /\ r = Ok tt /\
     (forall m, h' !! m = option_map (reparented n val m) (h !! m)) /\
     match val with None => True | Some v => (exists y, h !! v = Some y /\ n_kind y <> KAction) /\ ~ within h n v end) \/
  (h' = h /\ exists e, r = Raise e /\
     (e = AttributeError \/ (e = CycleError /\ exists v, val = Some v /\ within h n v))).
Proof.
  intros HF. destruct (h !! n) as [x|] eqn:Ex.
  2:{ unfold setParent. rewrite Ex. right. eauto. }
  destruct val as [v|].
  - destruct (h !! v) as [y|] eqn:Ey.
    + destruct (cycleCheck_spec h v n HF) as [(Ec & Hw)|(Ec & Hw)]; [now exists y| |].
      * unfold setParent. rewrite Ex, Ec. right. split; auto. exists CycleError. eauto 6.
      * destruct (n_kind y) eqn:Ek.
        3:{ unfold setParent. rewrite Ex, Ec, Ey, Ek. right. eauto. }
        all: destruct (setParent_spec h n (Some v) x HF Ex) as (h' & E & H);
          [split; [exists y; split; congruence|auto]|]; rewrite E; left; exists x;
          split; auto; split; auto; split; auto; split; auto; exists y; split; congruence.
    + unfold setParent, enough. rewrite Ex. cbn [cycleCheck]. rewrite Ey.
      destruct (Nat.eqb_spec n v) as [->|]; [congruence|]. right. eauto.
  - destruct (setParent_spec h n None x HF Ex I) as (h' & E & H). rewrite E. left. exists x. auto.
Qed.

(** ** the forest property is kept *)
Section Reparent.
Context (h h' : heap) (n : nat) (val : option nat) (x : node).
Hypothesis HF : forest h.
Hypothesis Ex : h !! n = Some x.
Hypothesis Hval : match val with None => True | Some v => (exists y, h !! v = Some y) /\ ~ within h n v end.
Hypothesis H' : forall m, h' !! m = option_map (reparented n val m) (h !! m).

Lemma rep_parent m p : parent_of h' m p <-> (m = n /\ val = Some p) \/ (m <> n /\ parent_of h m p).
Proof.
  unfold parent_of. split.
  - intros (z & E & Ep). rewrite H' in E. destruct (h !! m) as [w|] eqn:Ew; [|discriminate]. injection E as <-.
    cbn in Ep. destruct (Nat.eqb_spec m n) as [->|]; [left; auto|right; split; auto; exists w; auto].
  - intros [(-> & ->)|(Hm & w & Ew & Ep)].
    + exists (reparented n (Some p) n x). split; [rewrite H', Ex; reflexivity|]. cbn. now rewrite Nat.eqb_refl.
    + exists (reparented n val m w). split; [rewrite H', Ew; reflexivity|]. cbn.
      destruct (Nat.eqb_spec m n); [congruence|auto].
Qed.
Lemma rep_child p m : child_of h' p m <-> (m = n /\ val = Some p) \/ (m <> n /\ child_of h p m).
Proof.
  unfold child_of. split.
  - intros (z & E & Hin). rewrite H' in E. destruct (h !! p) as [w|] eqn:Ew; [|discriminate]. injection E as <-.
    cbn in Hin. apply in_app_or in Hin. destruct Hin as [Hin|Hin].
    + apply in_others in Hin. right. split; [tauto|]. exists w. tauto.
    + destruct val as [v|]; [|destruct Hin]. destruct (Nat.eqb_spec p v) as [->|]; [|destruct Hin].
      destruct Hin as [<-|[]]. left; auto.
  - intros [(-> & ->)|(Hm & w & Ew & Hin)].
    + destruct Hval as ((y & Ey) & _). exists (reparented n (Some p) p y). split; [rewrite H', Ey; reflexivity|].
      cbn. rewrite Nat.eqb_refl. apply in_or_app. right. now left.
    + exists (reparented n val p w). split; [rewrite H', Ew; reflexivity|]. cbn. apply in_or_app. left.
      apply in_others. auto.
Qed.
Lemma rep_rtc a : rtc (parent_of h') a n -> rtc (parent_of h) a n.
Proof.
  intros H. remember n as b eqn:Eb. induction H as [|a c b Hs Hr IH]; [apply rtc_refl|]. subst b.
  apply rep_parent in Hs. destruct Hs as [(-> & _)|(Hne & Hs)]; [apply rtc_refl|].
  eapply rtc_l; eauto.
Qed.
Lemma rep_tc a b : tc (parent_of h') a b ->
  tc (parent_of h) a b \/ exists v, val = Some v /\ rtc (parent_of h') a n /\ rtc (parent_of h') v b.
Proof.
  induction 1 as [a b Hs|a c b Hs Hr IH].
  - pose proof Hs as Hs0. apply rep_parent in Hs. destruct Hs as [(-> & Ev)|(Hne & Hs)].
    + right. exists b. split; auto. split; apply rtc_refl.
    + left. now apply tc_once.
  - pose proof Hs as Hs0. apply rep_parent in Hs. destruct Hs as [(-> & Ev)|(Hne & Hs)].
    + right. exists c. split; auto. split; [apply rtc_refl|now apply tc_rtc].
    + destruct IH as [IH|(v & Ev & I1 & I2)].
      * left. eapply tc_l; eauto.
      * right. exists v. split; auto. split; auto. eapply rtc_l; eauto.
Qed.
Lemma rep_forest : forest h'.
Proof.
  pose proof HF as (HL & HN & HA). split; [|split].
  - intros m p. rewrite rep_parent, rep_child. rewrite HL. reflexivity.
  - intros p y E. rewrite H' in E. destruct (h !! p) as [w|] eqn:Ew; [|discriminate]. injection E as <-. cbn.
    apply nodup_std. assert (Hd : List.NoDup (others n (n_children w))).
    { apply nodup_std, others_nodup. eauto. }
    destruct val as [v|]; [destruct (Nat.eqb p v)|]; rewrite ?app_nil_r; auto.
    apply (Permutation.Permutation_NoDup (l := n :: others n (n_children w))).
    + apply Permutation.Permutation_cons_append.
    + constructor; auto. rewrite in_others. tauto.
  - intros m Hm. destruct (rep_tc m m Hm) as [H|(v & Ev & I1 & I2)]; [now apply (HA m)|].
    pose proof Hval as Hv2. rewrite Ev in Hv2. destruct Hv2 as (_ & Hw). apply Hw. unfold within. apply rep_rtc.
    eapply rtc_transitive; eauto.
Qed.
End Reparent.

Lemma setParent_forest h n val : forest h -> forest (fst (setParent (enough h) n val h)).
Proof.
  intros HF. pose proof (setParent_cases h n val HF) as Hc. destruct (setParent (enough h) n val h) as (h', r).
  destruct Hc as [(x & Ex & _ & H' & Hv)|(-> & _)]; [|exact HF]. cbn [fst].
  apply (rep_forest h h' n val x); auto. destruct val as [v|]; auto. destruct Hv as ((y & Ey & _) & Hw).
  split; [now exists y|auto].
Qed.

(** adding an isolated node *)
Lemma insert_isolated_forest h n k : forest h -> h !! n = None ->
  forest (<[n := {| n_kind := k; n_parent := None; n_children := [] |}]> h).
Proof.
  intros (HL & HN & HA) Hn.
  assert (HP : forall m p, parent_of (<[n := {| n_kind := k; n_parent := None; n_children := [] |}]> h) m p <-> parent_of h m p).
  { intros m p. unfold parent_of. destruct (Nat.eq_dec m n) as [->|Hm].
    - rewrite lookup_insert, Hn. split; intros (z & E & Ep); [injection E as <-; discriminate|discriminate].
    - rewrite lookup_insert_ne by auto. reflexivity. }
  assert (HC : forall p m, child_of (<[n := {| n_kind := k; n_parent := None; n_children := [] |}]> h) p m <-> child_of h p m).
  { intros p m. unfold child_of. destruct (Nat.eq_dec p n) as [->|Hm].
    - rewrite lookup_insert, Hn. split; intros (z & E & Ep); [injection E as <-; destruct Ep|discriminate].
    - rewrite lookup_insert_ne by auto. reflexivity. }
  split; [|split].
  - intros m p. rewrite HP, HC. apply HL.
  - intros p y E. destruct (Nat.eq_dec p n) as [->|Hm].
    + rewrite lookup_insert in E. injection E as <-. constructor.
    + rewrite lookup_insert_ne in E by auto. eauto.
  - intros m Hm. apply (HA m).
    assert (Hincl : forall a b, tc (parent_of (<[n := {| n_kind := k; n_parent := None; n_children := [] |}]> h)) a b -> tc (parent_of h) a b).
    { induction 1 as [a b Hs|a c b Hs Hr IH]; [apply tc_once; now apply HP|eapply tc_l; [apply HP; eauto|auto]]. }
    now apply Hincl.
Qed.

(** reordering *)
Lemma reorder_forest_gen h p y cs : forest h -> h !! p = Some y -> Permutation cs (n_children y) ->
  forest (<[p := with_children cs y]> h).
Proof.
  intros (HL & HN & HA) Ey Hperm.
  assert (HP : forall m q, parent_of (<[p := with_children cs y]> h) m q <-> parent_of h m q).
  { intros m q. unfold parent_of. destruct (Nat.eq_dec m p) as [->|Hm].
    - rewrite lookup_insert, Ey. split; intros (z & E & Ep); injection E as <-; (eexists; split; [reflexivity|exact Ep]).
    - rewrite lookup_insert_ne by auto. reflexivity. }
  assert (HC : forall q m, child_of (<[p := with_children cs y]> h) q m <-> child_of h q m).
  { intros q m. unfold child_of. destruct (Nat.eq_dec q p) as [->|Hm].
    - rewrite lookup_insert, Ey. split; intros (z & E & Ep); injection E as <-; (eexists; split; [reflexivity|]); cbn in *.
      + eapply Permutation.Permutation_in; eauto.
      + eapply Permutation.Permutation_in; [apply Permutation_sym|]; eauto.
    - rewrite lookup_insert_ne by auto. reflexivity. }
  split; [|split].
  - intros m q. rewrite HP, HC. apply HL.
  - intros q z E. destruct (Nat.eq_dec q p) as [->|Hm].
    + rewrite lookup_insert in E. injection E as <-. cbn. apply nodup_std.
      apply (Permutation.Permutation_NoDup (l := n_children y)); [now apply Permutation_sym|]. apply nodup_std. eauto.
    + rewrite lookup_insert_ne in E by auto. eauto.
  - intros m Hm. apply (HA m).
    assert (Hincl : forall a b, tc (parent_of (<[p := with_children cs y]> h)) a b -> tc (parent_of h) a b).
    { induction 1 as [a b Hs|a c b Hs Hr IH]; [apply tc_once; now apply HP|eapply tc_l; [apply HP; eauto|auto]]. }
    now apply Hincl.
Qed.

Lemma z_mem_In x l : z_mem x l = true <-> In x l.
Proof.
  induction l as [|y r IH]; cbn; [intuition discriminate|]. rewrite orb_true_iff, IH, Z.eqb_eq. intuition congruence.
Qed.
Lemma z_unique_NoDup l : z_unique l = true <-> List.NoDup l.
Proof.
  induction l as [|x r IH]; cbn.
  - split; [constructor|reflexivity].
  - rewrite andb_true_iff, negb_true_iff, IH. split.
    + intros (H1 & H2). constructor; auto. rewrite <- z_mem_In, H1. discriminate.
    + intros H. inversion H; subst. split; auto. destruct (z_mem x r) eqn:E; auto. apply z_mem_In in E. contradiction.
Qed.
Lemma take_all_nth cs l cs' : Forall (fun z => (0 <= z)%Z) l -> take_all cs l = Some cs' ->
  Forall2 (fun i c => nth_error cs (Z.to_nat i) = Some c) l cs'.
Proof.
  revert cs'; induction l as [|i r IH]; intros cs' Hp H; cbn in H.
  - injection H as <-. constructor.
  - inversion Hp; subst. destruct (py_get cs i) as [c|] eqn:Ec; [|discriminate].
    destruct (take_all cs r) as [r'|] eqn:Er; [|discriminate]. injection H as <-. constructor; auto.
    rewrite <- (Z2Nat.id i) in Ec by auto. rewrite py_get_nat in Ec. exact Ec.
Qed.
Lemma take_all_perm cs l cs' : List.NoDup cs -> Forall (fun z => (0 <= z)%Z) l -> z_unique l = true ->
  length l = length cs -> take_all cs l = Some cs' -> Permutation cs' cs.
Proof.
  intros Hn Hp Hu Hlen H. apply z_unique_NoDup in Hu. pose proof (take_all_nth _ _ _ Hp H) as HF2.
  apply Permutation.NoDup_Permutation_bis.
  - clear H Hlen. revert Hu Hp. induction HF2 as [|i c r r' Hic HF2 IH]; intros Hu Hp; [constructor|].
    inversion Hu; subst. inversion Hp as [|? ? Hi0 Hr0]; subst. constructor; auto. intros Hin.
    destruct (In_nth_error _ _ Hin) as (k & Ek).
    assert (Hk : exists j, nth_error r k = Some j /\ nth_error cs (Z.to_nat j) = Some c).
    { clear -HF2 Ek. revert k Ek. induction HF2 as [|a b l1 l2 Hab HF2 IH]; intros [|k] Ek; try discriminate; cbn in *.
      - injection Ek as ->. eauto.
      - eauto. }
    destruct Hk as (j & Ej & Ecj).
    assert (Z.to_nat i = Z.to_nat j).
    { apply (proj1 (NoDup_nth_error cs) Hn); [apply nth_error_Some; congruence|congruence]. }
    assert (Hj : In j r) by (eapply nth_error_In; eauto).
    assert (0 <= j)%Z. { rewrite List.Forall_forall in Hr0. exact (Hr0 j Hj). }
    assert (i = j) by lia. subst. contradiction.
  - rewrite <- Hlen. apply Nat.eq_le_incl. apply Forall2_length in HF2. exact HF2.
  - intros c Hc. destruct (In_nth_error _ _ Hc) as (k & Ek). clear -HF2 Ek. revert k Ek.
    induction HF2 as [|a b l1 l2 Hab HF2 IH]; intros [|k] Ek; try discriminate; cbn in *.
    + injection Ek as ->. eapply nth_error_In; eauto.
    + eauto.
Qed.

Lemma merge_forest self skip cs : forall h c, forest h -> forest (fst (merge_loop self skip cs h c)).
Proof.
  induction cs as [|a r IH]; intros h c HF; cbn [merge_loop]; auto.
  destruct (skip a) as [[|]|e|]; auto. pose proof (setParent_forest h a (Some self) HF) as H.
  destruct (setParent (enough h) a (Some self) h) as (h', [u|e|]); cbn [fst] in *; auto.
Qed.

Lemma step_forest h o : op_ok o -> forest h -> forest (step h o).
Proof.
  intros Ho HF. destruct o as [n k p f|n v|p n|e p n|p o i|a b nf tf sd|a b]; cbn [step].
  - unfold newNode. destruct (h !! n) as [x|] eqn:En; [exact HF|].
    pose proof (insert_isolated_forest h n k HF En) as HF1. destruct p as [q|]; [|exact HF1].
    pose proof (setParent_forest _ n (Some q) HF1) as HF2.
    destruct (setParent _ n (Some q) _) as (h2, [u|e|]); exact HF2.
  - now apply setParent_forest.
  - unfold addChild. destruct (h !! n) as [x|]; [|exact HF]. destruct (n_kind x); try exact HF. now apply setParent_forest.
  - unfold removeChild. destruct (h !! p) as [y|]; [|exact HF]. destruct (n_kind y); try exact HF.
    destruct (existsb _ _); [now apply setParent_forest|exact HF].
  - unfold reorderChildren. destruct (h !! p) as [y|] eqn:Ey; [|exact HF]. cbn zeta.
    assert (Hrev : forest (<[p := with_children (rev (n_children y)) y]> h)).
    { apply reorder_forest_gen; auto. apply Permutation_sym, Permutation_rev. }
    destruct o as [|f| |l]; cbn [op_ok] in Ho.
    + destruct (n_kind y); auto.
    + assert (Hf : forest (<[p := with_children (f (n_children y)) y]> h)) by (apply reorder_forest_gen; auto).
      destruct (n_kind y); auto.
    + destruct (n_kind y); auto.
    + assert (Hg : forall k, forest (fst (if negb (length l =? length (n_children y)) then (h, Raise ValueError)
          else if negb (z_unique l) then (h, Raise ValueError)
          else if i then (h, Raise NameError)
          else match take_all (n_children y) l with
               | None => (h, Raise IndexError)
               | Some cs' => match k with
                             | KAction => (h, Raise TypeError)
                             | _ => (<[p := with_children cs' y]> h, @Ok unit tt)
                             end
               end))).
      { intros k. destruct (Nat.eqb_spec (length l) (length (n_children y))) as [El|]; [|exact HF].
        destruct (z_unique l) eqn:Eu; [|exact HF]. destruct i; [exact HF|].
        destruct (take_all (n_children y) l) as [cs'|] eqn:Et; [|exact HF].
        assert (Hp : forest (<[p := with_children cs' y]> h)).
        { apply reorder_forest_gen; auto. eapply take_all_perm; eauto. apply nodup_std.
          destruct HF as (_ & HN & _). eauto. }
        destruct k; auto. }
      destruct (n_kind y); [exact (Hg KCatalog)|exact (Hg KField)|exact (Hg KAction)].
  - unfold mergeNode. destruct (h !! a) as [x|]; [|exact HF]. destruct (h !! b) as [y|]; [|exact HF].
    destruct (names nf (n_children x)); [now apply merge_forest|exact HF|exact HF].
  - unfold insertInto. destruct (h !! b) as [x|]; [|exact HF]. destruct (n_parent x) as [q|]; [|exact HF].
    destruct (h !! q) as [y|]; exact HF.
Qed.

Lemma empty_forest : forest ∅.
Proof.
  split; [|split].
  - intros n p. split; intros (x & E & _); rewrite lookup_empty in E; discriminate.
  - intros p y E. rewrite lookup_empty in E; discriminate.
  - intros n H. destruct H as [n m Hs|n k m Hs _]; destruct Hs as (x & E & _); rewrite lookup_empty in E; discriminate.
Qed.
Lemma run_forest ops : forall h, Forall op_ok ops -> forest h -> forest (run h ops).
Proof.
  induction ops as [|o r IH]; intros h Ho HF; cbn; auto. inversion Ho; subst. apply IH; auto. now apply step_forest.
Qed.
Lemma reachable_forest h : reachable h -> forest h.
Proof. intros (ops & Ho & ->). apply run_forest; auto. apply empty_forest. Qed.

(** ** mergeNode *)
Lemma existsb_eqb m l : existsb (Nat.eqb m) l = true <-> In m l.
Proof.
  rewrite existsb_exists. split; [intros (x & Hx & E); apply Nat.eqb_eq in E; now subst|intros H; exists m; split; auto; apply Nat.eqb_refl].
Qed.
Lemma moved_nil self m x : moved self [] m x = x.
Proof.
  unfold moved. cbn [existsb negb]. destruct x as [k p cs]. cbn. f_equal.
  replace (List.filter (fun _ => true) cs) with cs by (induction cs; cbn; congruence).
  destruct (m =? self); apply app_nil_r.
Qed.
Lemma moved_cons self a ms m x : ~ In a ms ->
  moved self ms m (reparented a (Some self) m x) = moved self (a :: ms) m x.
Proof.
  intros Ha. unfold moved, reparented. cbn [n_kind n_parent n_children]. f_equal.
  - cbn [existsb]. destruct (Nat.eqb_spec m a); cbn; destruct (existsb _ _); reflexivity.
  - rewrite List.filter_app.
    replace (List.filter (fun c => negb (existsb (Nat.eqb c) ms)) (if m =? self then [a] else [])) with (if m =? self then [a] else []).
    2:{ destruct (m =? self); [|reflexivity]. cbn [List.filter]. destruct (existsb (Nat.eqb a) ms) eqn:E; [|reflexivity].
        apply existsb_eqb in E. contradiction. }
    replace (List.filter (fun c => negb (existsb (Nat.eqb c) ms)) (others a (n_children x)))
      with (List.filter (fun c => negb (existsb (Nat.eqb c) (a :: ms))) (n_children x)).
    2:{ unfold others. generalize (n_children x). intros l. induction l as [|c r IH]; [reflexivity|].
        cbn [List.filter existsb]. destruct (Nat.eqb_spec c a); cbn [orb negb List.filter]; [exact IH|].
        destruct (existsb (Nat.eqb c) ms); cbn [orb negb]; [exact IH|now f_equal]. }
    rewrite <- app_assoc. f_equal. destruct (m =? self); reflexivity.
Qed.
Lemma within_reparent h h' a self x c : (exists y, h !! self = Some y) -> h !! a = Some x ->
  (forall m, h' !! m = option_map (reparented a (Some self) m) (h !! m)) -> ~ within h a self ->
  within h' c self -> within h c self.
Proof.
  unfold within. intros Hy Ex H' Ha Hw.
  cut (forall d, rtc (parent_of h) self d -> rtc (parent_of h') d c -> rtc (parent_of h) self c).
  { intros H. apply (H self); auto. apply rtc_refl. }
  clear Hw. intros d Hd Hw. induction Hw as [|d e c Hs Hr IH]; auto. apply IH.
  apply (rep_parent h h' a (Some self) x Ex (conj Hy Ha) H') in Hs. destruct Hs as [(-> & _)|(_ & Hs)].
  - contradiction.
  - eapply rtc_r; eauto.
Qed.
Definition tomove (skip : nat -> res bool) (cs : list nat) : list nat :=
  List.filter (fun c => match skip c with Ok false => true | _ => false end) cs.
Lemma merge_loop_spec self skip cs : forall h k, forest h -> (exists y, h !! self = Some y /\ n_kind y <> KAction) ->
  List.NoDup cs -> (forall c, In c cs -> is_Some (h !! c)) -> (forall c, In c cs -> exists b, skip c = Ok b) ->
  (forall c, In c cs -> skip c = Ok false -> ~ within h c self) ->
  exists h', merge_loop self skip cs h k = (h', Ok (k + length (tomove skip cs))) /\
    forall m, h' !! m = option_map (moved self (tomove skip cs) m) (h !! m).
Proof.
  induction cs as [|a r IH]; intros h k HF Hself Hnd Hdom Hskip Hw.
  - exists h. cbn. rewrite Nat.add_0_r. split; auto. intros m. destruct (h !! m) as [x|]; auto. cbn. now rewrite moved_nil.
  - inversion Hnd as [|? ? Ha Hr]; subst. destruct (Hskip a (or_introl eq_refl)) as (b & Eb).
    cbn [merge_loop tomove List.filter]. rewrite Eb. destruct b.
    + apply IH; auto using in_cons.
    + destruct (Hdom a (or_introl eq_refl)) as (x & Ex).
      pose proof (Hw a (or_introl eq_refl) Eb) as Hwa.
      destruct (setParent_spec h a (Some self) x HF Ex) as (h1 & E1 & H1); [split; auto|].
      rewrite E1. destruct (IH h1 (S k)) as (h' & E' & H').
      * pose proof (setParent_forest h a (Some self) HF) as HF1. now rewrite E1 in HF1.
      * destruct Hself as (y & Ey & Hk). exists (reparented a (Some self) self y). rewrite H1, Ey. split; auto.
      * exact Hr.
      * intros c Hc. rewrite H1. destruct (Hdom c (or_intror Hc)) as (z & ->). now eexists.
      * intros c Hc. apply Hskip. now right.
      * intros c Hc Es Hws. apply (Hw c (or_intror Hc) Es). destruct Hself as (y & Ey & _). eapply within_reparent; eauto.
      * exists h'. rewrite E'. split; [f_equal; f_equal; cbn; unfold tomove; lia|].
        intros m. rewrite H', H1. destruct (h !! m) as [z|]; [|reflexivity]. cbn [option_map]. f_equal.
        apply moved_cons. intros Hin. apply filter_In in Hin. tauto.
Qed.
Lemma mergeNode_spec h self other nameof testfunc skipdup x y nms : forest h ->
  h !! self = Some x -> n_kind x <> KAction -> h !! other = Some y ->
  names nameof (n_children x) = Ok nms ->
  (forall c, In c (n_children y) -> exists b, skipped nameof testfunc skipdup nms c = Ok b) ->
  let ms := tomove (skipped nameof testfunc skipdup nms) (n_children y) in
  (forall c, In c ms -> ~ within h c self) ->
  exists h', mergeNode self other nameof testfunc skipdup h = (h', Ok (length ms)) /\
    forall m, h' !! m = option_map (moved self ms m) (h !! m).
Proof.
  intros HF Ex Hk Ey En Hs ms Hw. unfold mergeNode. rewrite Ex, Ey, En.
  apply (merge_loop_spec self _ (n_children y) h 0); auto.
  - eauto.
  - apply nodup_std. destruct HF as (_ & HN & _). eauto.
  - intros c Hc. assert (Hp : parent_of h c other) by (apply HF; exists y; auto). destruct Hp as (z & Ez & _). now exists z.
  - intros c Hc E. apply Hw. unfold ms, tomove. apply filter_In. rewrite E. auto.
Qed.
