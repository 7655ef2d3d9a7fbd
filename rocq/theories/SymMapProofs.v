(** * SymMapProofs: proofs about SymMapModel *)
From Coq Require Import List ZArith Lia Bool.
From stdpp Require Import gmap.
From Verif Require Import PyBase SymMapModel.
Import ListNotations.

(** ** Specification *)
(** The two directions are inverse of each other. *)
Definition inverse (s : smap) : Prop := forall k v, fwd s !! k = Some v <-> bwd s !! v = Some k.

(** No entry involves the object None. *)
Definition no_none (s : smap) : Prop := forall d k v, this d s !! k = Some v -> k <> pyNone /\ v <> pyNone.

(** A call that assigns only keys not present in the dictionary it is made on,
    and no None; every other call is unrestricted, except dict.clear on one of
    the directions. *)
Definition careful (s : smap) (o : op) : Prop :=
  match o with
  | OSet d k v => this d s !! k = None /\ k <> pyNone /\ v <> pyNone
  | OUpdate d kvs => NoDup (List.map fst kvs) /\
      forall k v, In (k, v) kvs -> this d s !! k = None /\ k <> pyNone /\ v <> pyNone
  | OSetDefault k x => k <> pyNone /\ x <> pyNone
  | OLinkedClear _ => False
  | _ => True
  end.
Fixpoint careful_run (s : smap) (ops : list op) : Prop :=
  match ops with [] => True | o :: r => careful s o /\ careful_run (step s o) r end.

Definition good s := inverse s /\ no_none s.

Lemma mk_this_link d s : mk d (this d s) (link d s) = s.
Proof. destruct d, s; reflexivity. Qed.
Lemma this_mk d a b : this d (mk d a b) = a.
Proof. destruct d; reflexivity. Qed.
Lemma link_mk d a b : link d (mk d a b) = b.
Proof. destruct d; reflexivity. Qed.

Lemma inverse_dir d s : inverse s <-> forall k v, this d s !! k = Some v <-> link d s !! v = Some k.
Proof.
  destruct d; cbn; unfold inverse.
  - reflexivity.
  - split; intros H k v; symmetry; apply H.
Qed.
Lemma no_none_dir d s : inverse s -> (forall k v, this d s !! k = Some v -> k <> pyNone /\ v <> pyNone) -> no_none s.
Proof.
  intros Hi H d' k v E. destruct d, d'; cbn in *; try (now apply H in E).
  - apply Hi in E. apply H in E. tauto.
  - apply Hi in E. apply H in E. tauto.
Qed.

(** full description of an assignment of a fresh key *)
Lemma setitem_fresh d k v s : this d s !! k = None -> v <> pyNone ->
  no_none s ->
  setitem d k v s = match link d s !! v with
                    | Some _ => (s, Raise KeyError)
                    | None => (mk d (<[k := v]> (this d s)) (<[v := k]> (link d s)), Ok tt)
                    end.
Proof.
  intros Hk Hv Hn. unfold setitem, set_nested, oldval. rewrite Hk. cbv beta iota zeta delta [from_option id pyNone].
  destruct (link d s !! v) as [[x|]|] eqn:E; cbv beta iota zeta delta [from_option id pyNone].
  - rewrite delete_insert by auto. now rewrite mk_this_link.
  - exfalso. assert (this (match d with Fwd => Bwd | Bwd => Fwd end) s !! v = Some None).
    { destruct d; exact E. } apply Hn in H. destruct H as [_ H]. now apply H.
  - reflexivity.
Qed.

Lemma setitem_good d k v s : this d s !! k = None -> k <> pyNone -> v <> pyNone ->
  good s -> good (fst (setitem d k v s)).
Proof.
  intros Hk Hkn Hv (Hi & Hn). rewrite setitem_fresh by auto.
  destruct (link d s !! v) as [x|] eqn:E; [split; auto|]. cbn [fst].
  assert (Hi2 : inverse (mk d (<[k := v]> (this d s)) (<[v := k]> (link d s)))).
  { apply (inverse_dir d). rewrite this_mk, link_mk. rewrite (inverse_dir d) in Hi.
    intros k' v'. destruct (decide (k = k')) as [<-|Hkk].
    - rewrite lookup_insert. split.
      + intros [= <-]. apply lookup_insert.
      + intros H. destruct (decide (v = v')) as [<-|Hvv]; auto.
        rewrite lookup_insert_ne in H by auto. apply Hi in H. congruence.
    - rewrite lookup_insert_ne by auto. destruct (decide (v = v')) as [<-|Hvv].
      + rewrite lookup_insert. split; intros H; [apply Hi in H; congruence|congruence].
      + rewrite lookup_insert_ne by auto. apply Hi. }
  split; auto. apply (no_none_dir d); auto. rewrite this_mk. intros k' v' H.
  destruct (decide (k = k')) as [<-|Hkk]; [rewrite lookup_insert in H; injection H as <-; auto|].
  rewrite lookup_insert_ne in H by auto. eauto.
Qed.

Lemma delitem_good_spec d k s : inverse s ->
  delitem d k s = match this d s !! k with
                  | None => (s, Raise KeyError)
                  | Some v => (mk d (delete k (this d s)) (delete v (link d s)), Ok tt)
                  end.
Proof.
  intros Hi. unfold delitem, del_nested. destruct (this d s !! k) as [v|] eqn:E; [|reflexivity].
  rewrite (inverse_dir d) in Hi. apply Hi in E. now rewrite E.
Qed.

Lemma delitem_good d k s : good s -> good (fst (delitem d k s)).
Proof.
  intros (Hi & Hn). rewrite delitem_good_spec by auto. destruct (this d s !! k) as [v|] eqn:E; [|now split].
  cbn [fst]. pose proof Hi as Hi0. rewrite (inverse_dir d) in Hi.
  assert (Hi2 : inverse (mk d (delete k (this d s)) (delete v (link d s)))).
  { apply (inverse_dir d). rewrite this_mk, link_mk. intros k' v'.
    rewrite !lookup_delete_Some. rewrite Hi. split; intros (H1 & H2); split; auto; intros ->.
    - apply H1. apply Hi in E. congruence.
    - apply H1. apply Hi in H2. congruence. }
  split; auto. apply (no_none_dir d); auto. rewrite this_mk. intros k' v' H.
  apply lookup_delete_Some in H. destruct H as [_ H]. eauto.
Qed.

Lemma update_good d kvs : forall s, NoDup (List.map fst kvs) ->
  (forall k v, In (k, v) kvs -> this d s !! k = None /\ k <> pyNone /\ v <> pyNone) ->
  good s -> good (fst (update d kvs s)).
Proof.
  induction kvs as [|(k, v) r IH]; intros s HN Hc Hg; cbn [update]; auto.
  destruct (Hc k v (or_introl eq_refl)) as (H1 & H2 & H3).
  pose proof (setitem_good d k v s H1 H2 H3 Hg) as Hg'.
  pose proof (setitem_fresh d k v s H1 H3 (proj2 Hg)) as E.
  destruct (link d s !! v) as [x|] eqn:El; rewrite E in *; cbn [fst] in *; auto.
  cbn in HN. inversion HN as [|? ? Hnin HN']; subst. apply IH; auto.
  intros k' v' Hin. destruct (Hc k' v' (or_intror Hin)) as (G1 & G2 & G3). split; auto.
  rewrite this_mk. rewrite lookup_insert_ne; auto. intros ->. apply Hnin.
  apply elem_of_list_In. change k' with (fst (k', v')). now apply in_map.
Qed.

Lemma clear_good order : forall s, good s -> good (fst (clear order s)).
Proof.
  induction order as [|k r IH]; intros s Hg; cbn [clear]; auto.
  pose proof (delitem_good Fwd k s Hg) as H. destruct (delitem Fwd k s) as (s', [u|e|]); cbn in *; auto.
Qed.

Lemma step_good s o : careful s o -> good s -> good (step s o).
Proof.
  intros Hc Hg. destruct o; cbn [step careful] in *.
  - apply setitem_good; tauto.
  - now apply delitem_good.
  - apply update_good; tauto.
  - exact Hg.
  - unfold pop. destruct (fwd s !! k) as [v|]; [|exact Hg].
    pose proof (delitem_good Fwd k s Hg) as H. destruct (delitem Fwd k s) as (s', [u|e|]); exact H.
  - unfold setdefault. destruct (fwd s !! k) as [v|] eqn:E; [exact Hg|].
    pose proof (setitem_good Fwd k dflt s E (proj1 Hc) (proj2 Hc) Hg) as H.
    destruct (setitem Fwd k dflt s) as (s', [u|e|]); exact H.
  - now apply clear_good.
  - destruct Hc.
Qed.

Lemma run_good ops : forall s, careful_run s ops -> good s -> good (run s ops).
Proof.
  induction ops as [|o r IH]; intros s Hc Hg; cbn in *; auto.
  apply IH; [tauto|]. apply step_good; tauto.
Qed.

Lemma empty_good : good empty_map.
Proof.
  split.
  - intros k v. cbn. rewrite !lookup_empty. split; discriminate.
  - intros d k v. destruct d; cbn; rewrite lookup_empty; discriminate.
Qed.

(** A call that raises changes nothing when the directions are inverse, except
    a partial update. *)
Lemma setitem_raise d k v s s' e : good s -> v <> pyNone -> k <> pyNone ->
  setitem d k v s = (s', Raise e) -> s' = s /\ e = KeyError /\ link d s !! v <> None.
Proof.
  intros (Hi & Hn) Hv Hk. unfold setitem, set_nested, oldval.
  destruct (link d s !! v) as [[x|]|] eqn:El; cbv beta iota zeta delta [from_option id pyNone]; try discriminate.
  destruct (this d s !! k) as [[y|]|] eqn:Et; cbv beta iota zeta delta [from_option id pyNone].
  - intros [= <- <-]. split; [|split; [reflexivity|congruence]].
    rewrite insert_insert, insert_id by auto. apply mk_this_link.
  - exfalso. apply Hn in Et. destruct Et as [_ Et]. now apply Et.
  - intros [= <- <-]. split; [|split; [reflexivity|congruence]].
    rewrite delete_insert by auto. apply mk_this_link.
Qed.

(** Overwriting an existing key breaks the correspondence, always. *)
Lemma setitem_overwrite d k v1 v2 s : good s -> k <> pyNone -> v2 <> pyNone ->
  this d s !! k = Some v1 -> v1 <> v2 ->
  snd (setitem d k v2 s) = Ok tt -> ~ inverse (fst (setitem d k v2 s)) /\
     link d (fst (setitem d k v2 s)) !! v1 = Some k /\ link d (fst (setitem d k v2 s)) !! v2 = Some k.
Proof.
  intros (Hi & Hn) Hk Hv2 E Hne. rewrite (inverse_dir d) in Hi.
  unfold setitem, set_nested. destruct (oldval (link d s) v2) as [x|] eqn:Eo; cbn.
  - destruct (oldval (this d s) k); cbn; discriminate.
  - intros _. apply Hi in E.
    assert (H1 : link d (mk d (<[k := v2]> (this d s)) (<[v2 := k]> (link d s))) !! v1 = Some k).
    { rewrite link_mk. rewrite lookup_insert_ne by auto. exact E. }
    assert (H2 : link d (mk d (<[k := v2]> (this d s)) (<[v2 := k]> (link d s))) !! v2 = Some k).
    { rewrite link_mk. apply lookup_insert. }
    split; [|split; auto]. intros Hi2. rewrite (inverse_dir d) in Hi2.
    apply Hi2 in H1. rewrite this_mk, lookup_insert in H1. congruence.
Qed.
Lemma sizes_inverse s : inverse s -> size (fwd s) = size (bwd s).
Proof.
  intros Hi. unfold size, map_size.
  rewrite <- (fmap_length (fun p : obj * obj => (snd p, fst p)) (map_to_list (fwd s))).
  apply Permutation_length. apply NoDup_Permutation.
  - apply NoDup_fmap_2; [|apply NoDup_map_to_list]. intros [a b] [c d] [= -> ->]; reflexivity.
  - apply NoDup_map_to_list.
  - intros (v, k). rewrite elem_of_list_fmap. split.
    + intros ((k', v') & [= -> ->] & H). apply elem_of_map_to_list in H. apply elem_of_map_to_list. now apply Hi.
    + intros H. apply elem_of_map_to_list in H. exists (k, v). split; auto. apply elem_of_map_to_list. now apply Hi.
Qed.
