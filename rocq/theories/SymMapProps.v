(** * SymMapProps: property theorems for SymmetricMapping (C09) *)
From Coq Require Import List ZArith Lia Bool.
From stdpp Require Import gmap.
From Verif Require Import PyBase SymMapModel SymMapProofs.
Import ListNotations.

(** After any history of calls through either direction in which no present
    key is assigned again (rejected assignments included), the directions are
    mutually inverse and have the same length. *)
Theorem C09_bijection : forall ops, careful_run empty_map ops ->
  inverse (run empty_map ops) /\ size (fwd (run empty_map ops)) = size (bwd (run empty_map ops)).
Proof.
  exact (fun ops H => let g := run_good ops empty_map H empty_good in conj (proj1 g) (sizes_inverse _ (proj1 g))).
Qed.
Print Assumptions C09_bijection.

(** In such a state a rejected assignment changes nothing, also when the key
    is present; it happens exactly when the value is already used. *)
Theorem C09_rejected_unchanged : forall ops d k v s' e, careful_run empty_map ops -> v <> pyNone -> k <> pyNone ->
  setitem d k v (run empty_map ops) = (s', Raise e) ->
  s' = run empty_map ops /\ e = KeyError /\ link d (run empty_map ops) !! v <> None.
Proof.
  exact (fun ops d k v s' e H => setitem_raise d k v (run empty_map ops) s' e (run_good ops empty_map H empty_good)).
Qed.
Print Assumptions C09_rejected_unchanged.

(** Reading after an accepted assignment, both ways; nothing else changes. *)
Theorem C09_assignment : forall ops d k v, careful_run empty_map ops -> k <> pyNone -> v <> pyNone ->
  let s := run empty_map ops in
  this d s !! k = None -> link d s !! v = None ->
  exists s', setitem d k v s = (s', Ok tt) /\ this d s' = <[k := v]> (this d s) /\ link d s' = <[v := k]> (link d s).
Proof.
  intros ops d k v H Hk Hv s Ht Hl. destruct (run_good ops empty_map H empty_good) as (Hi & Hn).
  eexists. rewrite setitem_fresh, Hl by auto. split; [reflexivity|]. now rewrite this_mk, link_mk.
Qed.
Print Assumptions C09_assignment.

Theorem C09_deletion : forall ops d k v, careful_run empty_map ops ->
  let s := run empty_map ops in
  this d s !! k = Some v ->
  exists s', delitem d k s = (s', Ok tt) /\ this d s' = delete k (this d s) /\ link d s' = delete v (link d s).
Proof.
  intros ops d k v H s Ht. destruct (run_good ops empty_map H empty_good) as (Hi & Hn).
  eexists. rewrite delitem_good_spec, Ht by auto. split; [reflexivity|]. now rewrite this_mk, link_mk.
Qed.
Print Assumptions C09_deletion.

(** FINDING: assigning a new value to a present key always leaves the old value
    mapped back to the key. *)
Theorem C09_overwrite_refuted : forall ops d k v1 v2, careful_run empty_map ops -> k <> pyNone -> v2 <> pyNone ->
  let s := run empty_map ops in
  this d s !! k = Some v1 -> v1 <> v2 -> snd (setitem d k v2 s) = Ok tt ->
  ~ inverse (fst (setitem d k v2 s)) /\
  link d (fst (setitem d k v2 s)) !! v1 = Some k /\ link d (fst (setitem d k v2 s)) !! v2 = Some k.
Proof.
  exact (fun ops d k v1 v2 H Hk Hv => setitem_overwrite d k v1 v2 (run empty_map ops)
           (run_good ops empty_map H empty_good) Hk Hv).
Qed.
Print Assumptions C09_overwrite_refuted.

(** FINDING: None as a key defeats the uniqueness test. *)
Theorem C09_none_refuted : exists ops, ~ inverse (run empty_map ops) /\
  ops = [OSet Fwd pyNone (Some 5); OSet Fwd (Some 1) (Some 5)].
Proof.
  eexists. split; [|reflexivity]. intros H. specialize (H None (Some 5)). vm_compute in H. destruct H as [H _].
  specialize (H eq_refl). discriminate.
Qed.
Print Assumptions C09_none_refuted.

(** FINDING: clear() on one direction only clears that one; pop on a direction
    always raises NameError. *)
Theorem C09_linked_clear_refuted : forall d s, inverse s -> this d s <> ∅ -> ~ inverse (linked_clear d s).
Proof.
  intros d s Hi Hne H. rewrite (inverse_dir d) in Hi. rewrite (inverse_dir d) in H.
  unfold linked_clear in H. rewrite this_mk, link_mk in H. apply Hne. apply map_empty. intros k.
  destruct (this d s !! k) as [v|] eqn:E; [|reflexivity]. exfalso. apply Hi in E. apply H in E.
  rewrite lookup_empty in E. discriminate.
Qed.
Print Assumptions C09_linked_clear_refuted.
Theorem C09_linked_pop_refuted : forall d k s, linked_pop d k s = (s, Raise NameError).
Proof. reflexivity. Qed.
Print Assumptions C09_linked_pop_refuted.

Example C09_ex : let ops := [OSet Fwd (Some 1) (Some 10); OSet Bwd (Some 20) (Some 2); OSet Fwd (Some 3) (Some 10);
    ODel Bwd (Some 10); OUpdate Fwd [(Some 1, Some 11); (Some 4, Some 20)]; OSetDefault (Some 2) (Some 7)] in
  careful_run empty_map ops /\ map_to_list (fwd (run empty_map ops)) = [(Some 2, Some 20); (Some 1, Some 11)] /\
  map_to_list (bwd (run empty_map ops)) = [(Some 20, Some 2); (Some 11, Some 1)].
Proof.
  split; [|vm_compute; auto]. cbn [careful_run careful]. split_and!; try reflexivity; try discriminate; auto.
  - repeat constructor; set_solver.
  - intros k v [[= <- <-]|[[= <- <-]|[]]]; split_and!; try discriminate; vm_compute; reflexivity.
Qed.
