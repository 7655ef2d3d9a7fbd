(** * RegistryProofs *)
From Coq Require Import Reals ZArith List Bool Arith Lia.
From Verif Require Import PyBase RealTrig AngleModel SphereModel SphereProofs SphereProps RegistryModel.
Import ListNotations.
Open Scope nat_scope.

Lemma pairb_true p q : pairb p q = true <-> p = q.
Proof. unfold pairb. destruct p as [a b], q as [c d]. cbn. rewrite andb_true_iff, !Nat.eqb_eq. split; [intros (-> & ->); auto|intros E; injection E; auto]. Qed.
Lemma pairb_refl p : pairb p p = true. Proof. now apply pairb_true. Qed.
Lemma pairb_false p q : pairb p q = false <-> p <> q.
Proof. rewrite <- pairb_true. destruct (pairb p q); intuition congruence. Qed.

Section Dict.
Context {K V : Type} (eqb : K -> K -> bool) (Heq : forall a b, eqb a b = true <-> a = b).
Lemma dict_eqb_refl k : eqb k k = true. Proof. now apply Heq. Qed.
Lemma dget_dset k k' (v : V) l : dget eqb k' (dset eqb k v l) = if eqb k' k then Some v else dget eqb k' l.
Proof.
  induction l as [|(k0, v0) l IH]; cbn; [reflexivity|]. destruct (eqb k k0) eqn:E.
  - apply Heq in E. subst k0. cbn. now destruct (eqb k' k).
  - cbn. rewrite IH. destruct (eqb k' k0) eqn:E2; [|reflexivity]. apply Heq in E2. subst k0.
    destruct (eqb k' k) eqn:E3; [|reflexivity]. apply Heq in E3. subst k'. rewrite dict_eqb_refl in E. discriminate.
Qed.
Lemma dget_In k (l : list (K * V)) : (exists v, dget eqb k l = Some v) <-> In k (map fst l).
Proof.
  induction l as [|(k0, v0) l IH]; cbn; [split; [intros (v & H); discriminate|tauto]|]. destruct (eqb k k0) eqn:E.
  - apply Heq in E. subst. split; eauto.
  - rewrite IH. split; [auto|]. intros [<-|H]; [rewrite dict_eqb_refl in E; discriminate|exact H].
Qed.
Lemma dget_None k (l : list (K * V)) : dget eqb k l = None <-> ~ In k (map fst l).
Proof.
  rewrite <- dget_In. destruct (dget eqb k l) as [v|]; split; try congruence; try tauto.
  - intros H. exfalso. apply H. eauto.
  - intros _ (v & H). discriminate.
Qed.
Lemma dget_ddel k k' (l : list (K * V)) : NoDup (map fst l) -> dget eqb k' (ddel eqb k l) = if eqb k' k then None else dget eqb k' l.
Proof.
  induction l as [|(k0, v0) l IH]; cbn; intros Hn; [now destruct (eqb k' k)|]. inversion Hn as [|? ? Hni Hn']; subst. destruct (eqb k k0) eqn:E.
  - apply Heq in E. subst k0. destruct (eqb k' k) eqn:E2; [|reflexivity]. apply Heq in E2. subst. now apply dget_None.
  - cbn. rewrite IH by auto. destruct (eqb k' k0) eqn:E2; [|reflexivity]. apply Heq in E2. subst k0.
    destruct (eqb k' k) eqn:E3; [|reflexivity]. apply Heq in E3. subst k'. rewrite dict_eqb_refl in E. discriminate.
Qed.
Lemma In_dset_keys k k' (v : V) l : In k' (map fst (dset eqb k v l)) <-> k' = k \/ In k' (map fst l).
Proof.
  induction l as [|(k0, v0) l IH]; cbn; [intuition|]. destruct (eqb k k0) eqn:E.
  - apply Heq in E. subst k0. cbn. intuition.
  - cbn. rewrite IH. tauto.
Qed.
Lemma NoDup_dset k (v : V) l : NoDup (map fst l) -> NoDup (map fst (dset eqb k v l)).
Proof.
  induction l as [|(k0, v0) l IH]; cbn; intros H; [constructor; [tauto|constructor]|]. inversion H as [|? ? Hn Hd]; subst. destruct (eqb k k0) eqn:E; cbn.
  - exact H.
  - constructor; auto. rewrite In_dset_keys. intros [->|Hi]; [rewrite dict_eqb_refl in E; discriminate|auto].
Qed.
Lemma In_ddel_keys k k' (l : list (K * V)) : In k' (map fst (ddel eqb k l)) -> In k' (map fst l).
Proof. induction l as [|(k0, v0) l IH]; cbn; [auto|]. destruct (eqb k k0); cbn; tauto. Qed.
Lemma NoDup_ddel k (l : list (K * V)) : NoDup (map fst l) -> NoDup (map fst (ddel eqb k l)).
Proof.
  induction l as [|(k0, v0) l IH]; cbn; intros H; [auto|]. inversion H as [|? ? Hn Hd]; subst. destruct (eqb k k0); cbn; [auto|]. constructor; auto.
  intros Hi. apply Hn. eapply In_ddel_keys; eauto.
Qed.
End Dict.

(** ** Specification: paths in a graph given by its edges *)
Fixpoint chain (g : list (cls * cls)) (p : list cls) : Prop :=
  match p with x :: ((y :: _) as r) => In (x, y) g /\ chain g r | _ => True end.
Definition is_path g a b p := hd_error p = Some a /\ last p a = b /\ p <> [] /\ chain g p.
Definition shortest g a b p := is_path g a b p /\ forall q, is_path g a b q -> length p <= length q.
(** what is assumed of networkx.shortest_path with unit weights *)
Definition sp_ok (e : env) : Prop := forall g a b, a <> b ->
  (forall p, sp e g a b = Ok p -> shortest g a b p) /\ ((exists q, is_path g a b q) -> exists p, sp e g a b = Ok p).

(** ** Invariant *)
Definition inv (r : reg) : Prop := NoDup (listAll r) /\ (graph r = None \/ graph r = Some (listAll r)).
Lemma inv_invalidate cv ty g oc : NoDup (map fst cv) -> inv (invalidate (Reg cv ty g oc)).
Proof. intros H. split; cbn; auto. Qed.
Lemma getGraph_spec r : inv r -> inv (fst (getGraph r)) /\ snd (getGraph r) = listAll r /\ convs (fst (getGraph r)) = convs r /\ ttypes (fst (getGraph r)) = ttypes r /\ ocache (fst (getGraph r)) = ocache r.
Proof.
  intros (Hn & Hg). unfold getGraph. destruct (graph r) as [g|] eqn:E.
  - destruct Hg as [Hg|Hg]; [discriminate|]. injection Hg as ->. cbn. repeat split; auto.
  - cbn. repeat split; auto.
Qed.
Lemma path_state e r a b : inv r -> inv (fst (getTransformPath e r a b)) /\ convs (fst (getTransformPath e r a b)) = convs r /\ ocache (fst (getTransformPath e r a b)) = ocache r /\ ttypes (fst (getTransformPath e r a b)) = ttypes r.
Proof.
  intros H. unfold getTransformPath. destruct (dget pairb (a, b) (convs r)); [auto|]. destruct (getGraph_spec r H) as (A & B & D & E & F).
  destruct (getGraph r) as (r', g). cbn in *. destruct (sp e g a b) as [[|x p]|ex|]; auto.
Qed.
Lemma convert_state e r o to : inv r -> inv (fst (convert e r o to)) /\ convs (fst (convert e r o to)) = convs r /\ ttypes (fst (convert e r o to)) = ttypes r /\ ocache (fst (convert e r o to)) = ocache r.
Proof.
  intros H. unfold convert. destruct (path_state e r (ocls o) to H) as (A & B & D & E). destruct (getTransformPath e r (ocls o) to) as (r', [[c|p]|ex|]); cbn in *; auto.
Qed.
Lemma convertLL_state e r o to opt : inv r -> inv (fst (convertLL e r o to opt)) /\ convs (fst (convertLL e r o to opt)) = convs r /\ ttypes (fst (convertLL e r o to opt)) = ttypes r.
Proof.
  intros H. unfold convertLL. destruct (to =? ocls o); [auto|]. destruct opt; [|destruct (convert_state e r o to H) as (A & B & D & _); auto].
  destruct (dget pairb (ocls o, to) (ocache r)); [auto|]. destruct (path_state e r (ocls o) to H) as (A & B & D & E).
  destruct (getTransformPath e r (ocls o) to) as (r', [p|ex|]); cbn in *; auto.
  destruct (match p with inl c => Ok ([SConv c], true) | inr path => buildSteps e r' (VObj o) path None end) as [(l, [|])|ex|]; cbn; auto.
Qed.
Lemma add_keys r n t : listAll (addTransType r n t) = listAll r.
Proof.
  unfold addTransType, listAll. cbn [convs]. destruct (dget Nat.eqb n (ttypes r)); [|reflexivity].
  destruct (last _ _) as (k, [f|t' f to n']); [reflexivity|]. destruct (last (convs r) _) as ((k1, k2), c). rewrite map_map. apply map_ext. intros x.
  destruct (transtype (snd x)) as [n''|]; [destruct (n =? n'')|]; reflexivity.
Qed.
Lemma rstep_inv e r o : inv r -> inv (rstep e r o).
Proof.
  intros H. pose proof H as (Hn & Hg). destruct o as [a b f ty ow|a b|n t| |a b|o to|o to opt]; cbn [rstep].
  - unfold registerTransform. destruct a as [a|], b as [b|]; auto. destruct (negb ow && _); [auto|]. destruct ty as [n|].
    + destruct (dget Nat.eqb n (ttypes r)); [|auto]. apply inv_invalidate. apply NoDup_dset; [apply pairb_true|exact Hn].
    + apply inv_invalidate. apply NoDup_dset; [apply pairb_true|exact Hn].
  - unfold delTransform. destruct (dget _ _ _); [|auto]. apply inv_invalidate. apply NoDup_ddel. exact Hn.
  - split; [rewrite add_keys; auto|]. rewrite add_keys. exact Hg.
  - apply getGraph_spec; auto.
  - apply path_state; auto.
  - apply convert_state; auto.
  - apply convertLL_state; auto.
Qed.
Lemma rrun_inv e l r : inv r -> inv (rrun e r l).
Proof. revert r. induction l as [|o l IH]; intros r H; cbn; [auto|]. apply IH. now apply rstep_inv. Qed.
Lemma inv0 : inv reg0. Proof. split; cbn; [constructor|auto]. Qed.

(** ** Conversion along a path *)
Inductive along (e : env) (r : reg) : list cls -> val -> val -> Prop :=
| along_one a v : along e r [a] v v
| along_cons a b p v v' w c : getTransform r a b = Ok c -> applyConv e c v = Ok v' -> along e r (b :: p) v' w -> along e r (a :: b :: p) v w.
Lemma follow_along e r inter : forall cur to o w, follow e r cur inter to o = Ok w <-> along e r (cur :: inter ++ [to]) o w.
Proof.
  induction inter as [|i inter IH]; intros cur to o w; cbn [follow app].
  - split.
    + destruct (dget pairb (cur, to) (convs r)) as [c|] eqn:E; [|discriminate]. intros H. eapply along_cons; [unfold getTransform; rewrite E; reflexivity|exact H|constructor].
    + intros H. inversion H as [|? ? ? ? ? ? c G A B]; subst. inversion B; subst. unfold getTransform in G. destruct (dget _ _ _); [|discriminate]. injection G as ->. exact A.
  - split.
    + destruct (dget pairb (cur, i) (convs r)) as [c|] eqn:E; [|discriminate]. destruct (applyConv e c o) as [o'|ex|] eqn:A; try discriminate. intros H.
      eapply along_cons; [unfold getTransform; rewrite E; reflexivity|exact A|now apply IH].
    + intros H. inversion H as [|? ? ? ? ? ? c G A B]; subst. unfold getTransform in G. destruct (dget _ _ _); [|discriminate]. injection G as ->. rewrite A. now apply IH.
Qed.
Lemma path_shape g a b p : a <> b -> is_path g a b p -> p = a :: removelast (tl p) ++ [b].
Proof.
  intros Hab (H1 & H2 & H3 & _). destruct p as [|x p]; [congruence|]. injection H1 as ->. cbn [tl]. destruct p as [|y p]; [cbn in H2; congruence|].
  f_equal. assert (last (y :: p) a = b) as L by exact H2. rewrite <- L. apply app_removelast_last. discriminate.
Qed.
Lemma In_listAll r a b : In (a, b) (listAll r) <-> exists c, getTransform r a b = Ok c.
Proof.
  unfold listAll, getTransform. rewrite <- (dget_In pairb pairb_true). split; intros (c & H).
  - rewrite H. eauto.
  - destruct (dget _ _ _); [eauto|discriminate].
Qed.
Lemma along_chain e r p v w : along e r p v w -> chain (listAll r) p.
Proof.
  induction 1 as [|a b p v v' w c G A B IH]; cbn; [auto|]. split; [apply In_listAll; eauto|exact IH].
Qed.
Lemma listAll_convs r r' : convs r' = convs r -> listAll r' = listAll r.
Proof. unfold listAll. now intros ->. Qed.
Lemma along_convs e r r' p v w : convs r' = convs r -> along e r' p v w -> along e r p v w.
Proof.
  intros E. induction 1 as [|a b p v v' w c G A B IH]; [constructor|]. eapply along_cons; eauto. unfold getTransform in *. now rewrite <- E.
Qed.
(** getTransformPath *)
Lemma path_spec e r a b : inv r -> sp_ok e -> a <> b -> getTransform r a b = Raise KeyError ->
  (forall x, snd (getTransformPath e r a b) = Ok x -> exists p, x = inr p /\ shortest (listAll r) a b p) /\
  ((exists q, is_path (listAll r) a b q) -> exists p, snd (getTransformPath e r a b) = Ok (inr p)).
Proof.
  intros Hi Hs Hab Hg. unfold getTransformPath. unfold getTransform in Hg. destruct (dget pairb (a, b) (convs r)); [discriminate|].
  destruct (getGraph_spec r Hi) as (_ & Eg & _). destruct (getGraph r) as (r', g). cbn in Eg. subst g. destruct (Hs (listAll r) a b Hab) as (S1 & S2). split.
  - intros x. destruct (sp e (listAll r) a b) as [p|ex|] eqn:E; cbn; try discriminate. destruct p as [|y p]; cbn; [discriminate|]. intros Hx. injection Hx as <-. exists (y :: p). auto.
  - intros H. destruct (S2 H) as (p & E). rewrite E. specialize (S1 p E) as ((_ & _ & Hn & _) & _). destruct p as [|y p]; [congruence|]. exists (y :: p). reflexivity.
Qed.
Lemma convert_spec e r o to w : inv r -> sp_ok e -> ocls o <> to -> snd (convert e r o to) = Ok w ->
  exists p, shortest (listAll r) (ocls o) to p /\ along e r p (VObj o) w.
Proof.
  intros Hi Hs Hab H. unfold convert in H. destruct (getTransform r (ocls o) to) as [c|ex|] eqn:G.
  - unfold getTransformPath in H. unfold getTransform in G. destruct (dget pairb (ocls o, to) (convs r)) as [c'|] eqn:E; [|discriminate]. injection G as ->. cbn in H.
    exists [ocls o; to]. split.
    + split. { repeat split; cbn; try discriminate; auto. apply In_listAll. unfold getTransform. rewrite E. eauto. }
      intros q Hq. apply path_shape in Hq; auto. rewrite Hq. cbn. rewrite app_length. cbn. lia.
    + eapply along_cons; [unfold getTransform; rewrite E; reflexivity|exact H|constructor].
  - assert (ex = KeyError) as ->. { unfold getTransform in G. destruct (dget _ _ _); congruence. }
    destruct (path_spec e r (ocls o) to Hi Hs Hab G) as (P1 & _). destruct (path_state e r (ocls o) to Hi) as (_ & Ec & _).
    destruct (getTransformPath e r (ocls o) to) as (r', [x|ex|]); try discriminate. cbn in P1, Ec. destruct (P1 x eq_refl) as (p & -> & Hp). cbn in H.
    exists p. split; [exact Hp|]. apply follow_along in H. rewrite <- (path_shape _ _ _ _ Hab (proj1 Hp)) in H. eapply along_convs; eauto.
  - unfold getTransform in G. destruct (dget _ _ _); discriminate.
Qed.
Lemma follow_total e r p : forall v, chain (listAll r) p -> p <> [] ->
  (forall a b c v, getTransform r a b = Ok c -> exists w, applyConv e c v = Ok w) -> exists w, along e r p v w.
Proof.
  induction p as [|a p IH]; intros v Hc Hn Ht; [congruence|]. destruct p as [|b p]; [exists v; constructor|].
  destruct Hc as (Hi & Hc). apply In_listAll in Hi. destruct Hi as (c & G). destruct (Ht a b c v G) as (v' & A). destruct (IH v' Hc) as (w & W); [discriminate|auto|]. exists w. econstructor; eauto.
Qed.
Lemma convert_total e r o to : inv r -> sp_ok e -> ocls o <> to -> (exists q, is_path (listAll r) (ocls o) to q) ->
  (forall a b c v, getTransform r a b = Ok c -> exists w, applyConv e c v = Ok w) -> exists w, snd (convert e r o to) = Ok w.
Proof.
  intros Hi Hs Hab Hq Ht. unfold convert. destruct (getTransform r (ocls o) to) as [c|ex|] eqn:G.
  - unfold getTransformPath. pose proof G as G'. unfold getTransform in G'. destruct (dget pairb (ocls o, to) (convs r)) as [c'|] eqn:E; [|discriminate]. injection G' as ->. cbn. eapply Ht; eauto.
  - assert (ex = KeyError) as ->. { unfold getTransform in G. destruct (dget _ _ _); congruence. }
    destruct (path_spec e r (ocls o) to Hi Hs Hab G) as (P1 & P2). destruct (P2 Hq) as (p & E). destruct (P1 _ E) as (p' & Ep & Hp). injection Ep as <-.
    destruct (path_state e r (ocls o) to Hi) as (_ & Ec & _).
    destruct (getTransformPath e r (ocls o) to) as (r', x). cbn in E, Ec. subst x. cbn.
    destruct (follow_total e r p (VObj o)) as (w & W); [apply Hp|apply Hp|exact Ht|]. exists w. apply follow_along. rewrite <- (path_shape _ _ _ _ Hab (proj1 Hp)).
    eapply along_convs; [|exact W]. now rewrite Ec.
  - unfold getTransform in G. destruct (dget _ _ _); discriminate.
Qed.
