(** * RegProof: registries of data objects (C97, C98) *)
From Coq Require Import List Bool Arith Ascii String Lia.
From Verif Require Import PyBase PubModel AngStrModel AngStrRead IoFiles RegModel.
Import ListNotations.

(** ** Dictionaries *)
Lemma eqb_refl s : str_eqb s s = true. Proof. now apply eqs. Qed.
Lemma eqb_neq a b : a <> b -> str_eqb a b = false. Proof. intros H. destruct (str_eqb a b) eqn:E; [|reflexivity]. apply eqs in E. contradiction. Qed.
Lemma eqb_cases a b : a = b /\ str_eqb a b = true \/ a <> b /\ str_eqb a b = false.
Proof. destruct (str_eqb a b) eqn:E; [left; apply eqs in E; auto|right; split; [|reflexivity]]. intros ->. rewrite eqb_refl in E. discriminate. Qed.
Lemma assoc_put {A} k (v : A) d k' : assoc k' (put k v d) = if str_eqb k' k then Some v else assoc k' d.
Proof.
  induction d as [|(k0, v0) d IH]; cbn [put assoc]; [reflexivity|].
  destruct (eqb_cases k k0) as [[-> E]|[N E]]; rewrite E; cbn [assoc].
  - destruct (str_eqb k' k0); reflexivity.
  - destruct (eqb_cases k' k0) as [[-> F]|[M F]]; rewrite F; [|exact IH]. rewrite eqb_neq by (intros ->; now apply N). reflexivity.
Qed.
Lemma assoc_put_same {A} k (v : A) d : assoc k (put k v d) = Some v. Proof. now rewrite assoc_put, eqb_refl. Qed.
Lemma assoc_put_other {A} k (v : A) d k' : k' <> k -> assoc k' (put k v d) = assoc k' d. Proof. intros H. now rewrite assoc_put, eqb_neq. Qed.
Lemma has_put {A} k (v : A) d k' : has k' (put k v d) = str_eqb k' k || has k' d.
Proof. unfold has. rewrite assoc_put. destruct (str_eqb k' k); reflexivity. Qed.
Lemma put_keys {A} k (v : A) d : forall x, In x (map fst (put k v d)) <-> x = k \/ In x (map fst d).
Proof.
  induction d as [|(k0, v0) d IH]; intros x; cbn [put map fst In]; [intuition congruence|]. destruct (eqb_cases k k0) as [[-> E]|[N E]]; rewrite E; cbn [map fst In]; [intuition congruence|]. rewrite IH. intuition congruence.
Qed.
Lemma put_nodup {A} k (v : A) d : NoDup (map fst d) -> NoDup (map fst (put k v d)).
Proof.
  induction d as [|(k0, v0) d IH]; cbn [put map fst]; intros H; [repeat constructor; auto|]. inversion H as [|? ? Hn Hd]; subst. destruct (eqb_cases k k0) as [[-> E]|[N E]]; rewrite E; cbn [map fst]; [exact H|].
  constructor; [|now apply IH]. rewrite put_keys. intros [->|X]; [now apply N|contradiction].
Qed.
Lemma assoc_in {A} k (v : A) d : assoc k d = Some v -> In (k, v) d.
Proof. induction d as [|(k0, v0) d IH]; cbn; [discriminate|]. destruct (eqb_cases k k0) as [[-> E]|[N E]]; rewrite E; [intros [= ->]; now left|intros H; right; auto]. Qed.
Lemma in_assoc {A} k (v : A) d : NoDup (map fst d) -> In (k, v) d -> assoc k d = Some v.
Proof.
  induction d as [|(k0, v0) d IH]; cbn [map fst]; intros H I'; [contradiction|]. inversion H as [|? ? Hn Hd]; subst. cbn [assoc]. destruct I' as [[= -> ->]|I']; [now rewrite eqb_refl|].
  rewrite eqb_neq; [now apply IH|]. intros ->. apply Hn. apply (in_map fst) in I'. exact I'.
Qed.
Lemma has_in {A} k (d : list (str * A)) : has k d = true <-> In k (map fst d).
Proof.
  unfold has. induction d as [|(k0, v0) d IH]; cbn [assoc map fst In]; [intuition discriminate|]. destruct (eqb_cases k k0) as [[-> E]|[N E]]; rewrite E; [intuition|]. rewrite IH. split; [tauto|]. intros [->|H]; [now elim N|exact H].
Qed.
Lemma mapM_raise {A B} (f : A -> @res B) l e : mapM f l = Raise e -> exists a, In a l /\ f a = Raise e.
Proof. induction l as [|a l IH]; cbn [mapM]; [discriminate|]. destruct (f a) eqn:E; [destruct (mapM f l) eqn:F; try discriminate; intros [= ->]; destruct (IH eq_refl) as (b & I' & Hb); exists b; split; [now right|exact Hb]|intros [= ->]; exists a; split; [now left|exact E]|discriminate]. Qed.
Lemma mapM_ok {A B} (f : A -> @res B) (h : A -> B) l : (forall a, In a l -> f a = Ok (h a)) -> mapM f l = Ok (map h l).
Proof. induction l as [|a l IH]; intros H; [reflexivity|]. cbn [mapM map]. rewrite H by now left. rewrite IH by (intros b I'; apply H; now right). reflexivity. Qed.

(** ** Registering *)
Lemma add_all_spec objs : forall g g', add_all g objs = (g', None) -> groups g' = groups g /\ typed g' = typed g /\ dataname g' = dataname g /\
  (forall k, (forall o, ~ In (k, o) objs) -> assoc k (items g') = assoc k (items g)) /\ (NoDup (map fst objs) -> forall k o, In (k, o) objs -> assoc k (items g') = Some o) /\
  (forall k, has k (items g') = true <-> has k (items g) = true \/ In k (map fst objs)) /\ (typed g = true -> forall k o, In (k, o) objs -> okind o = true).
Proof.
  induction objs as [|(k0, o0) objs IH]; intros g g' H; cbn [add_all] in H.
  - injection H as <-. repeat split; auto; try contradiction; cbn; tauto.
  - destruct (typed g && negb (okind o0)) eqn:T; [discriminate|]. destruct (IH _ _ H) as (A & B & C & D & E & F & G). cbn [setitem groups typed dataname items] in *. repeat split; auto.
    + intros k K. rewrite D by (intros o O; apply (K o); now right). apply assoc_put_other. intros ->. apply (K o0). now left.
    + intros ND k o [[= -> ->]|I']; inversion ND as [|? ? Hn Hd]; subst; [|now apply E].
      rewrite D; [apply assoc_put_same|]. intros o' O. apply Hn. apply (in_map fst) in O. exact O.
    + intros X. apply F in X. rewrite has_put, orb_true_iff in X. cbn [map fst In]. destruct X as [[X|X]|X]; [apply eqs in X; subst; auto|auto|auto].
    + intros X. apply F. rewrite has_put, orb_true_iff, eqs. cbn [map fst In] in X. intuition.
    + intros Ty k o [[= -> ->]|I']; [|now apply (G Ty k o)]. rewrite Ty in T. cbn in T. now destruct (okind o).
Qed.
Lemma add_all_fail objs : forall g g' e, add_all g objs = (g', Some e) -> e = ValueError /\ typed g = true /\ exists pre k o post, objs = pre ++ (k, o) :: post /\ okind o = false /\ add_all g pre = (g', None).
Proof.
  induction objs as [|(k0, o0) objs IH]; intros g g' e H; cbn [add_all] in H; [discriminate|]. destruct (typed g && negb (okind o0)) eqn:T.
  - injection H as <- <-. apply andb_prop in T. destruct T as [T1 T2]. repeat split; auto. exists [], k0, o0, objs. repeat split. now destruct (okind o0).
  - destruct (IH _ _ _ H) as (A & B & pre & k & o & post & -> & Q & P). repeat split; auto. exists ((k0, o0) :: pre), k, o, post. repeat split; auto. cbn [add_all]. now rewrite T.
Qed.
(** after a registration: the objects under their names, other names as before; the group has the names in the order given, other groups as before *)
Definition group_names (gn : groupname) : list str := match gn with GNone | GOther | GStr [] => [] | GStr s => [s] | GSeq l => l end.
Lemma set_groups l ks : forall g, let g' := fold_left (fun g s => set_group g s ks) l g in items g' = items g /\ typed g' = typed g /\ dataname g' = dataname g /\ (forall s, assoc s (groups g') = if existsb (str_eqb s) l then Some ks else assoc s (groups g)) /\ (NoDup (map fst (groups g)) -> NoDup (map fst (groups g'))).
Proof.
  induction l as [|s0 l IH]; intros g; cbn [fold_left existsb]; [repeat split; auto|]. destruct (IH (set_group g s0 ks)) as (A & B & C & D & E). cbn zeta in *. repeat split; auto.
  - intros s. rewrite D. cbn [set_group groups]. rewrite assoc_put. destruct (str_eqb s s0), (existsb (str_eqb s) l); reflexivity.
  - intros ND. apply E. now apply put_nodup.
Qed.
Lemma register_groups g objs gn g' : register g objs gn = (g', None) -> exists g1, add_all g objs = (g1, None) /\ g' = fold_left (fun g s => set_group g s (map fst objs)) (group_names gn) g1.
Proof.
  unfold register. destruct (add_all g objs) as [g1 [e|]]; [discriminate|]. intros H. exists g1. split; [reflexivity|]. destruct gn as [|[|a s]|l|]; cbn [group_names fold_left]; congruence.
Qed.
Lemma in_existsb s l : existsb (str_eqb s) l = true <-> In s l.
Proof. rewrite existsb_exists. split; [intros (x & I' & E); apply eqs in E; now subst|intros H; exists s; split; [exact H|apply eqb_refl]]. Qed.

Theorem C97_registered : forall g objs gn g', register g objs gn = (g', None) -> NoDup (map fst objs) ->
  (forall k o, In (k, o) objs -> assoc k (items g') = Some o) /\ (forall k, ~ In k (map fst objs) -> assoc k (items g') = assoc k (items g)) /\
  (forall s, In s (group_names gn) -> assoc s (groups g') = Some (map fst objs)) /\ (forall s, ~ In s (group_names gn) -> assoc s (groups g') = assoc s (groups g)).
Proof.
  intros g objs gn g' H ND. destruct (register_groups g objs gn g' H) as (g1 & A & ->). destruct (add_all_spec objs g g1 A) as (B1 & _ & _ & B2 & B3 & _). destruct (set_groups (group_names gn) (map fst objs) g1) as (C1 & _ & _ & C2 & _). cbn zeta in *. rewrite C1.
  split; [intros k o I'; now apply B3|]. split; [intros k N; apply B2; intros o I'; apply N; apply (in_map fst) in I'; exact I'|]. split.
  - intros s S. rewrite C2. apply in_existsb in S. now rewrite S.
  - intros s S. rewrite C2, B1. destruct (existsb (str_eqb s) (group_names gn)) eqn:E; [apply in_existsb in E; contradiction|reflexivity].
Qed.
(** looking a name up gives its object, a group the dictionary of its objects *)
Theorem C97_lookup : forall g k o f, assoc k (groups g) = None -> assoc k (items g) = Some o -> getitem (S f) g k = Ok (VObj o).
Proof. intros g k o f A B. cbn [getitem]. now rewrite A, B. Qed.
Theorem C97_group_lookup : forall g objs gn g' s f, register g objs gn = (g', None) -> NoDup (map fst objs) -> In s (group_names gn) -> (forall k, In k (map fst objs) -> assoc k (groups g') = None) ->
  getitem (S (S f)) g' s = Ok (VDict (map (fun p => (fst p, VObj (snd p))) objs)).
Proof.
  intros g objs gn g' s f H ND S K. destruct (C97_registered g objs gn g' H ND) as (A & _ & B & _). change (getitem (Datatypes.S (Datatypes.S f)) g' s) with
    (match assoc s (groups g') with Some ds => match mapM (fun d => match getitem (Datatypes.S f) g' d with Ok v => Ok (d, v) | Raise e => Raise e | OutOfFuel => OutOfFuel end) ds with Ok l => Ok (VDict l) | Raise e => Raise e | OutOfFuel => OutOfFuel end
     | None => match assoc s (items g') with Some o => Ok (VObj o) | None => Raise KeyError end end).
  rewrite (B s S). assert (M : forall l, (forall p, In p l -> In p objs) -> mapM (fun d => match getitem (Datatypes.S f) g' d with Ok v => Ok (d, v) | Raise e => Raise e | OutOfFuel => OutOfFuel end) (map fst l) = Ok (map (fun p => (fst p, VObj (snd p))) l)).
  { induction l as [|(k, o) l IH]; intros Sub; [reflexivity|]. cbn [map fst mapM]. rewrite (C97_lookup g' k o f); [|apply K; apply (in_map fst) in Sub || idtac|apply A, Sub; now left].
    - rewrite IH by (intros p P; apply Sub; now right). reflexivity.
    - pose proof (Sub (k, o) (or_introl eq_refl)) as Q. apply (in_map fst) in Q. exact Q. }
  rewrite M by auto. reflexivity.
Qed.
(** an object of a wrong type: refused; the ones before it (in the order of the dictionary) stay registered, no group is made *)
Theorem C97_wrong_type : forall g objs gn g' e, register g objs gn = (g', Some e) -> e = ValueError /\
  (gn = GOther \/ typed g = true /\ exists pre k o post, objs = pre ++ (k, o) :: post /\ okind o = false /\ register g pre GNone = (g', None)).
Proof.
  intros g objs gn g' e H. unfold register in H. destruct (add_all g objs) as [g1 [e1|]] eqn:E.
  - injection H as <- <-. destruct (add_all_fail objs g g1 e1 E) as (A & B & pre & k & o & post & P1 & P2 & P3). split; [exact A|right]. split; [exact B|]. exists pre, k, o, post. repeat split; auto. unfold register. now rewrite P3.
  - destruct gn as [|[|a s]|l|]; try discriminate. injection H as _ <-. auto.
Qed.
(** adding to a group *)
Theorem C97_add_to_group : forall fuel g key group,
  (forall v, getitem fuel g key = Ok v -> exists g' ks, addToGroup fuel g key group = (g', None) /\ items g' = items g /\ assoc group (groups g') = Some ks /\ In key ks /\
     (forall s, s <> group -> assoc s (groups g') = assoc s (groups g)) /\
     (assoc group (groups g) = None -> ks = [key]) /\ (forall ks0, assoc group (groups g) = Some ks0 -> (In key ks0 -> ks = ks0) /\ (~ In key ks0 -> ks = ks0 ++ [key]))) /\
  (forall e, getitem fuel g key = Raise e -> addToGroup fuel g key group = (g, Some e)).
Proof.
  intros fuel g key group. split.
  - intros v H. unfold addToGroup. rewrite H. eexists _, _. split; [reflexivity|]. cbn [set_group items groups]. split; [reflexivity|]. split; [apply assoc_put_same|].
    set (ks0 := match assoc group (groups g) with Some ks => ks | None => [] end). destruct (existsb (str_eqb key) ks0) eqn:E.
    + apply in_existsb in E. split; [exact E|]. split; [intros s N; now apply assoc_put_other|]. split; [intros Z; unfold ks0 in E; rewrite Z in E; contradiction|]. intros k1 Z. unfold ks0 in *. rewrite Z in *. split; [reflexivity|contradiction].
    + assert (N : ~ In key ks0) by (intros Q; apply in_existsb in Q; congruence). split; [apply in_or_app; right; now left|]. split; [intros s Hs; now apply assoc_put_other|]. split; [intros Z; unfold ks0; now rewrite Z|]. intros k1 Z. unfold ks0 in *. rewrite Z in *. split; [contradiction|reflexivity].
  - intros e H. unfold addToGroup. now rewrite H.
Qed.

(** ** Histories *)
Inductive op := ORegister (objs : list (str * dobj)) (gn : groupname) | OAssign (k : str) (o : dobj) | OAdd (fuel : nat) (key group : str) | ODelete (k : str) | ORemove (s : str) | OGet (fuel : nat) (r : request) (addmissing : bool).
Definition after (g : registry) (o : op) : registry :=
  match o with
  | ORegister objs gn => fst (register g objs gn)
  | OAssign k v => setitem g k v
  | OAdd f k s => fst (addToGroup f g k s)
  | ODelete k => fst (delitem g k)
  | ORemove s => fst (removeGroup g s)
  | OGet f r a => fst (getObjects f g r a)
  end.
Definition history (name : str) (ty : bool) (ops : list op) : registry := fold_left after ops (new name ty).
(** names of objects or groups *)
Definition known (g : registry) (k : str) : Prop := In k (map fst (items g)) \/ In k (map fst (groups g)).
Definition sound (g : registry) : Prop := NoDup (map fst (items g)) /\ NoDup (map fst (groups g)) /\ forall s ks k, assoc s (groups g) = Some ks -> In k ks -> known g k.
Lemma known_spec g k : known g k <-> has k (items g) = true \/ has k (groups g) = true.
Proof. unfold known. now rewrite !has_in. Qed.
Lemma set_sound g k o : sound g -> sound (setitem g k o).
Proof.
  intros (A & B & C). split; [now apply put_nodup|]. split; [exact B|]. intros s ks x S X. specialize (C s ks x S X). unfold known in *. cbn [setitem items groups]. rewrite put_keys. tauto.
Qed.
Lemma add_all_sound objs : forall g g' e, sound g -> add_all g objs = (g', e) -> sound g'.
Proof.
  induction objs as [|(k, o) objs IH]; intros g g' e S H; cbn [add_all] in H; [now injection H as <- <-|]. destruct (typed g && negb (okind o)); [now injection H as <- <-|]. apply (IH (setitem g k o) g' e); [now apply set_sound|exact H].
Qed.
Lemma set_group_sound g s ks : sound g -> (forall k, In k ks -> known g k) -> sound (set_group g s ks).
Proof.
  intros (A & B & C) K. split; [exact A|]. split; [now apply put_nodup|]. intros s' ks' k. cbn [set_group groups]. rewrite assoc_put. intros H I'. assert (Q : known g k) by (destruct (str_eqb s' s); [injection H as <-; now apply K|now apply (C s' ks')]).
  unfold known in *. cbn [set_group items groups]. rewrite put_keys. tauto.
Qed.
Lemma set_group_known g s ks k : known g k -> known (set_group g s ks) k.
Proof. unfold known. cbn [set_group items groups]. rewrite put_keys. tauto. Qed.
Lemma fold_group_sound l ks : forall g, sound g -> (forall k, In k ks -> known g k) -> sound (fold_left (fun g s => set_group g s ks) l g).
Proof. induction l as [|s l IH]; intros g S K; cbn [fold_left]; [exact S|]. apply IH; [now apply set_group_sound|]. intros k I'. apply set_group_known. now apply K. Qed.
Lemma check_items f a l : forall g g' r, check_objs f a g l = (g', r) -> groups g' = groups g /\ typed g' = typed g /\ dataname g' = dataname g /\ (forall k, In k (map fst (items g)) -> In k (map fst (items g'))) /\ (NoDup (map fst (items g)) -> NoDup (map fst (items g'))) /\
  ((forall p, In p (items g) -> okind (snd p) = true) -> forall p, In p (items g') -> okind (snd p) = true).
Proof.
  induction l as [|[n|o] l IH]; intros g g' r H; cbn [check_objs] in H; [injection H as <- <-; auto 10|now apply (IH g g' r)|].
  destruct (okind o) eqn:Ok_; cbn [negb] in H; [|injection H as <- <-; auto 10]. 
  assert (ST : forall n, check_objs f a (setitem g n o) l = (g', r) -> groups g' = groups g /\ typed g' = typed g /\ dataname g' = dataname g /\ (forall k, In k (map fst (items g)) -> In k (map fst (items g'))) /\ (NoDup (map fst (items g)) -> NoDup (map fst (items g'))) /\ ((forall p, In p (items g) -> okind (snd p) = true) -> forall p, In p (items g') -> okind (snd p) = true)).
  { intros n E. destruct (IH _ _ _ E) as (A & B & C & D & F & G). cbn [setitem groups typed dataname items] in *. repeat split; auto.
    - intros k K. apply D. apply put_keys. now right.
    - intros ND. apply F. now apply put_nodup.
    - intros P p Hp. apply G; [|exact Hp]. clear - P Ok_. intros q. induction (items g) as [|(k0, v0) d IHd]; cbn [put]; [intros [<-|[]]; exact Ok_|]. destruct (str_eqb n k0); intros [<-|Q].
      + exact Ok_.
      + apply P. now right.
      + apply P. now left.
      + apply IHd; [|exact Q]. intros p Hp. apply P. now right. }
  destruct (a && negb (existsb (fun p => Nat.eqb (oid (snd p)) (oid o)) (items g))); [|now apply (IH g g' r)].
  destruct (oname o) as [n|].
  - destruct (has n (items g)); [injection H as <- <-; auto 10|now apply (ST n)].
  - destruct (gen_name f 1 g) as [n|]; [now apply (ST n)|injection H as <- <-; auto 10].
Qed.
Lemma get_known f g k v : getitem f g k = Ok v -> known g k.
Proof.
  destruct f as [|f]; [discriminate|]. cbn [getitem]. rewrite known_spec. unfold has. destruct (assoc k (groups g)); [auto|]. destruct (assoc k (items g)); [auto|discriminate].
Qed.
Lemma getObjects_state f g r a : exists g' x, getObjects f g r a = (g', x) /\ (g' = g \/ exists l y, check_objs f a g l = (g', y)).
Proof.
  unfold getObjects. set (r' := match r with ROne o => if typed g && okind o then RSeq [inr o] else r | _ => r end). destruct r' as [s|l|o].
  - eexists g, _. split; [reflexivity|]. now left.
  - destruct (mapM _ l) as [objs|e|]; [|eexists g, _; split; [reflexivity|now left]|eexists g, _; split; [reflexivity|now left]].
    destruct (typed g); [|eexists g, _; split; [reflexivity|now left]]. destruct (check_objs f a g l) as [g' y] eqn:E. destruct y; (eexists g', _; split; [reflexivity|right; eauto]).
  - eexists g, _. split; [reflexivity|now left].
Qed.
Lemma after_sound g o : sound g -> sound (after g o).
Proof.
  intros S. destruct o as [objs gn|k v|f k s|k|s|f r a]; cbn [after].
  - unfold register. destruct (add_all g objs) as [g1 e] eqn:E. pose proof (add_all_sound objs g g1 e S E) as S1. destruct e; [exact S1|].
    destruct (add_all_spec objs g g1 E) as (_ & _ & _ & _ & _ & F & _).
    assert (K : forall k, In k (map fst objs) -> known g1 k) by (intros k I'; apply known_spec; left; apply F; now right).
    destruct gn as [|[|x s]|l|]; cbn [fst]; auto; [now apply set_group_sound|now apply fold_group_sound].
  - now apply set_sound.
  - unfold addToGroup. destruct (getitem f g k) as [v|e|] eqn:E; cbn [fst]; auto. apply get_known in E. apply set_group_sound; [exact S|]. intros x X. destruct (assoc s (groups g)) as [ks|] eqn:A.
    + destruct (existsb (str_eqb k) ks); [destruct S as (_ & _ & C); now apply (C s ks)|]. apply in_app_or in X. destruct X as [X|[<-|[]]]; [destruct S as (_ & _ & C); now apply (C s ks)|exact E].
    + cbn in X. destruct X as [<-|[]]. exact E.
  - exact S.
  - exact S.
  - destruct (getObjects_state f g r a) as (g' & x & -> & [->|(l & y & E)]); [exact S|]. cbn [fst]. destruct (check_items f a l g g' y E) as (A & _ & _ & B & C & _). destruct S as (S1 & S2 & S3). repeat split; [now apply C|now rewrite A|]. intros s ks k H I'. rewrite A in H. specialize (S3 s ks k H I'). unfold known in *. rewrite A. destruct S3; auto.
Qed.
Lemma history_sound name ty ops : sound (history name ty ops).
Proof.
  unfold history. assert (S0 : sound (new name ty)) by (repeat split; cbn; try constructor; discriminate). revert S0. generalize (new name ty). induction ops as [|o ops IH]; intros g S; cbn [fold_left]; [exact S|]. apply IH. now apply after_sound.
Qed.
(** after any history every name in a group is the name of an object or a group, so that looking up a known name never is a KeyError; names are never
    forgotten *)
Lemma get_no_keyerror g : sound g -> forall f k, known g k -> getitem f g k <> Raise KeyError.
Proof.
  intros (_ & _ & C). induction f as [|f IH]; intros k K; [discriminate|]. cbn [getitem]. destruct (assoc k (groups g)) as [ks|] eqn:A.
  - destruct (mapM _ ks) eqn:M; try discriminate. intros [= ->]. apply mapM_raise in M. destruct M as (d & D & M). destruct (getitem f g d) eqn:G; try discriminate. injection M as ->. apply (IH d); [now apply (C k ks)|exact G].
  - apply known_spec in K. unfold has in K. rewrite A in K. destruct (assoc k (items g)); [discriminate|]. destruct K; discriminate.
Qed.
Theorem C97_members : forall name ty ops s ks k f, assoc s (groups (history name ty ops)) = Some ks -> In k ks ->
  known (history name ty ops) k /\ getitem f (history name ty ops) k <> Raise KeyError /\ getitem f (history name ty ops) s <> Raise KeyError.
Proof.
  intros name ty ops s ks k f H I'. pose proof (history_sound name ty ops) as S. assert (K : known (history name ty ops) k) by (destruct S as (_ & _ & C); now apply (C s ks)). split; [exact K|]. split; apply get_no_keyerror; auto. apply known_spec. right. unfold has. now rewrite H.
Qed.
Lemma after_keeps g o k : known g k -> known (after g o) k.
Proof.
  intros K. destruct o as [objs gn|k0 v|f k0 s|k0|s|f r a]; cbn [after]; auto.
  - unfold register. destruct (add_all g objs) as [g1 e] eqn:E.
    assert (K1 : known g1 k). { clear gn. revert g E K. induction objs as [|(k1, o1) objs IH]; intros g E K; cbn [add_all] in E; [now injection E as <- <-|]. destruct (typed g && negb (okind o1)); [now injection E as <- <-|]. apply (IH _ E). unfold known in *. cbn [setitem items groups]. rewrite put_keys. tauto. }
    destruct e; [exact K1|]. destruct gn as [|[|x s]|l|]; cbn [fst]; auto; [now apply set_group_known|]. clear - K1. revert g1 K1. induction l as [|s l IH]; intros g1 K; cbn [fold_left]; [exact K|]. apply IH. now apply set_group_known.
  - unfold known in *. cbn [setitem items groups]. rewrite put_keys. tauto.
  - unfold addToGroup. destruct (getitem f g k0); cbn [fst]; auto. now apply set_group_known.
  - destruct (getObjects_state f g r a) as (g' & x & -> & [->|(l & y & E)]); [exact K|]. cbn [fst]. destruct (check_items f a l g g' y E) as (A & _ & _ & B & _). unfold known in *. rewrite A. destruct K; auto.
Qed.
Theorem C97_kept : forall name ty ops ops' k f, known (history name ty ops) k -> known (history name ty (ops ++ ops')) k /\ getitem f (history name ty (ops ++ ops')) k <> Raise KeyError.
Proof.
  intros name ty ops ops' k f K. assert (Q : known (history name ty (ops ++ ops')) k). { unfold history in *. rewrite fold_left_app. generalize dependent (fold_left after ops (new name ty)). clear ops. induction ops' as [|o ops IH]; intros g K; cbn [fold_left]; [exact K|]. apply IH. now apply after_keeps. }
  split; [exact Q|]. apply get_no_keyerror; [apply history_sound|exact Q].
Qed.
(** a registry for a datatype only has objects of it, unless one is assigned directly *)
Lemma put_okind k o d : okind o = true -> (forall p, In p d -> okind (snd p) = true) -> forall p, In p (put k o d) -> okind (snd p) = true.
Proof.
  intros O P. induction d as [|(k0, v0) d IH]; cbn [put]; intros p; [intros [<-|[]]; exact O|]. destruct (str_eqb k k0); intros [<-|Q]; try exact O; [apply P; now right|apply P; now left|]. apply IH; [|exact Q]. intros q Hq. apply P. now right.
Qed.
Theorem C97_typed : forall name ops, (forall k o, ~ In (OAssign k o) ops) -> forall p, In p (items (history name true ops)) -> okind (snd p) = true.
Proof.
  intros name ops H. unfold history. assert (G : forall ops g, (forall k o, ~ In (OAssign k o) ops) -> typed g = true -> (forall p, In p (items g) -> okind (snd p) = true) -> forall p, In p (items (fold_left after ops g)) -> okind (snd p) = true).
  { clear. induction ops as [|o ops IH]; intros g N T P; cbn [fold_left]; [exact P|]. assert (X : typed (after g o) = true /\ forall p, In p (items (after g o)) -> okind (snd p) = true).
    { destruct o as [objs gn|k0 v|f k0 s|k0|s|f r a]; cbn [after]; auto.
      - unfold register. destruct (add_all g objs) as [g1 e] eqn:E.
        assert (Q : typed g1 = true /\ forall p, In p (items g1) -> okind (snd p) = true). { clear gn N. revert g E T P. induction objs as [|(k1, o1) objs IHo]; intros g E T P; cbn [add_all] in E; [injection E as <- <-; auto|]. destruct (okind o1) eqn:O; [|rewrite T in E; cbn in E; injection E as <- <-; auto]. rewrite andb_false_r in E. apply (IHo _ E); [exact T|]. now apply put_okind. }
        destruct e; [exact Q|]. destruct gn as [|[|x s]|l|]; cbn [fst]; auto. clear - Q. revert g1 Q. induction l as [|s l IHl]; intros g1 Q; cbn [fold_left]; [exact Q|]. apply IHl. exact Q.
      - exfalso. apply (N k0 v). now left.
      - unfold addToGroup. destruct (getitem f g k0); auto.
      - destruct (getObjects_state f g r a) as (g' & x & -> & [->|(l & y & E)]); [auto|]. cbn [fst]. destruct (check_items f a l g g' y E) as (_ & B & _ & _ & _ & F). rewrite B. auto. }
    destruct X as [X1 X2]. apply IH; auto. intros k o' I'. apply (N k o'). now right. }
  apply G; [exact H|reflexivity|contradiction].
Qed.
(** nothing can be deleted *)
Theorem C97_delete_refuted : forall g k s, delitem g k = (g, Some TypeError) /\ removeGroup g s = (g, Some TypeError).
Proof. intros. split; reflexivity. Qed.
(** a group named like one of its objects makes both unreachable: the lookup never ends *)
Theorem C97_own_name_refuted : forall name ty s o f, s <> [] -> okind o = true -> getitem f (history name ty [ORegister [(s, o)] (GStr s)]) s = OutOfFuel.
Proof.
  intros name ty s o f N O. destruct s as [|a s]; [congruence|]. unfold history, new. cbn [fold_left after]. unfold register. cbn [add_all typed items groups]. rewrite O, andb_false_r. cbn [setitem items put typed dataname groups fst set_group map].
  match goal with |- getitem _ ?g _ = _ => set (g0 := g) end. assert (A : assoc (a :: s) (groups g0) = Some [a :: s]) by (apply assoc_put_same). clearbody g0.
  induction f as [|f IH]; [reflexivity|]. cbn [getitem]. rewrite A. cbn [mapM]. rewrite IH. reflexivity.
Qed.
Example C97_ex : let g := history (L "band") true [ORegister [(L "U", DObj 1 true None); (L "B", DObj 2 true None)] (GSeq [L "UB1"; L "john"]); OAdd 3 (L "john") (L "UB1")] in
  assoc (L "UB1") (groups g) = Some [L "U"; L "B"; L "john"] /\ known g (L "john") /\ getitem 3 g (L "john") = Ok (VDict [(L "U", VObj (DObj 1 true None)); (L "B", VObj (DObj 2 true None))]) /\
  snd (register g [(L "x", DObj 3 false None)] GNone) = Some ValueError.
Proof. intros g. repeat split. right. cbn. auto. Qed.
