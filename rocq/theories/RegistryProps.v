(** * RegistryProps: C24 *)
From Coq Require Import Reals ZArith List Bool Arith Lia Lra.
From Verif Require Import PyBase RealTrig AngleModel SphereModel SphereProofs SphereProps RegistryModel RegistryProofs RegistryBFS.
Import ListNotations.
Open Scope nat_scope.

(** ** The registry as a finite map *)
(** registerTransform, when it succeeds, sets the function for its pair of classes and nothing else;
    when it raises it changes nothing.  It raises exactly for a non-class, an unknown transformation
    type, or an existing function with overwrite=False. *)
Theorem C24_register : forall r from to f ty ow,
  (forall e, snd (registerTransform r from to f ty ow) = Raise e -> fst (registerTransform r from to f ty ow) = r) /\
  (snd (registerTransform r from to f ty ow) = Ok tt -> exists a b c, from = Some a /\ to = Some b /\
     getTransform (fst (registerTransform r from to f ty ow)) a b = Ok c /\
     (ty = None -> c = Plain f) /\ (forall n, ty = Some n -> exists t, dget Nat.eqb n (ttypes r) = Some t /\ c = Typed t f b n) /\
     forall a' b', (a', b') <> (a, b) -> getTransform (fst (registerTransform r from to f ty ow)) a' b' = getTransform r a' b') /\
  ((exists e, snd (registerTransform r from to f ty ow) = Raise e) <->
     from = None \/ to = None \/ (ow = false /\ exists a b c, from = Some a /\ to = Some b /\ getTransform r a b = Ok c) \/ exists n, ty = Some n /\ dget Nat.eqb n (ttypes r) = None).
Proof.
  intros r from to f ty ow. unfold registerTransform, getTransform. destruct from as [a|], to as [b|];
    try (cbn; repeat split; intros; try discriminate; try tauto; eauto; fail).
  assert (forall (c : conv) ty' g oc a' b', (a', b') <> (a, b) -> dget pairb (a', b') (convs (invalidate (Reg (dset pairb (a, b) c (convs r)) ty' g oc))) = dget pairb (a', b') (convs r)) as Fr.
  { intros. cbn. rewrite (dget_dset _ pairb_true). assert (pairb (a', b') (a, b) = false) as -> by now apply pairb_false. reflexivity. }
  assert (forall (c : conv) ty' g oc, dget pairb (a, b) (convs (invalidate (Reg (dset pairb (a, b) c (convs r)) ty' g oc))) = Some c) as Sm.
  { intros. cbn. rewrite (dget_dset _ pairb_true), pairb_refl. reflexivity. }
  destruct (negb ow && match dget pairb (a, b) (convs r) with Some _ => true | None => false end) eqn:W.
  - cbn [fst snd]. split; [auto|]. split; [discriminate|]. split; [|eauto]. intros _. right. right. left.
    apply andb_true_iff in W. destruct W as (W1 & W2). split; [now destruct ow|]. destruct (dget pairb (a, b) (convs r)) as [c|] eqn:E; [|discriminate].
    exists a, b, c. rewrite E. auto.
  - assert (forall P : Prop, (ow = false /\ exists a0 b0 c, Some a = Some a0 /\ Some b = Some b0 /\ match dget pairb (a0, b0) (convs r) with Some c0 => Ok c0 | None => Raise KeyError end = Ok c) -> P) as No.
    { intros P (-> & a0 & b0 & c & E1 & E2 & E3). injection E1 as <-. injection E2 as <-. cbn in W. destruct (dget pairb (a, b) (convs r)); [discriminate|discriminate]. }
    destruct ty as [n|]; [destruct (dget Nat.eqb n (ttypes r)) as [t|] eqn:T|]; cbn [fst snd].
    + split; [discriminate|]. split.
      * intros _. exists a, b, (Typed t f b n). rewrite Sm. repeat split; auto; try discriminate.
        -- intros n' E. injection E as <-. eauto.
        -- intros a' b' H. rewrite Fr by auto. reflexivity.
      * split; [intros (e & H); discriminate|]. intros [H|[H|[H|(n' & H & H')]]]; try discriminate; [now apply No|]. injection H as <-. congruence.
    + split; [auto|]. split; [discriminate|]. split; [|eauto]. intros _. right. right. right. eauto.
    + split; [discriminate|]. split.
      * intros _. exists a, b, (Plain f). rewrite Sm. repeat split; auto; try discriminate.
        intros a' b' H. rewrite Fr by auto. reflexivity.
      * split; [intros (e & H); discriminate|]. intros [H|[H|[H|(n' & H & H')]]]; try discriminate. now apply No.
Qed.
Print Assumptions C24_register.
(** delTransform removes exactly its pair, and raises KeyError (changing nothing) if it is not registered. *)
Theorem C24_delete : forall e l a b, let r := rrun e reg0 l in
  (forall c, getTransform r a b = Ok c -> snd (delTransform r a b) = Ok tt /\ getTransform (fst (delTransform r a b)) a b = Raise KeyError) /\
  (getTransform r a b = Raise KeyError -> delTransform r a b = (r, Raise KeyError)) /\
  (forall a' b', (a', b') <> (a, b) -> getTransform (fst (delTransform r a b)) a' b' = getTransform r a' b').
Proof.
  intros e l a b r. destruct (rrun_inv e l reg0 inv0) as (Hn & _). fold r in Hn. unfold listAll in Hn. unfold delTransform, getTransform. split; [|split].
  - intros c. destruct (dget pairb (a, b) (convs r)); [|discriminate]. intros _. cbn. rewrite (dget_ddel _ pairb_true), pairb_refl by auto. auto.
  - destruct (dget pairb (a, b) (convs r)); [discriminate|]. auto.
  - intros a' b' H. destruct (dget pairb (a, b) (convs r)); [|reflexivity]. cbn. rewrite (dget_ddel _ pairb_true) by auto.
    assert (pairb (a', b') (a, b) = false) as -> by now apply pairb_false. reflexivity.
Qed.
Print Assumptions C24_delete.
(** Reading (paths, graphs, conversions) never changes the registered transformations. *)
Theorem C24_reading_keeps : forall e l o, let r := rrun e reg0 l in
  match o with ORegister _ _ _ _ _ | ODelete _ _ | OAddType _ _ => True | _ => forall a b, getTransform (rstep e r o) a b = getTransform r a b end.
Proof.
  intros e l o r. assert (inv r) as H by (apply rrun_inv, inv0). unfold getTransform.
  destruct o as [a b f ty ow|a b|n t| |a b|o to|o to opt]; auto; cbn [rstep]; intros a' b'.
  - destruct (getGraph_spec r H) as (_ & _ & E & _). now rewrite E.
  - destruct (path_state e r a b H) as (_ & E & _). now rewrite E.
  - destruct (convert_state e r o to H) as (_ & E & _). now rewrite E.
  - destruct (convertLL_state e r o to opt H) as (_ & E & _). now rewrite E.
Qed.
Print Assumptions C24_reading_keeps.
(** The listings and the graph always show exactly the registered transformations, once each. *)
Theorem C24_listings : forall e l, let r := rrun e reg0 l in
  NoDup (listAll r) /\ snd (getGraph r) = listAll r /\
  (forall a b, In (a, b) (listAll r) <-> exists c, getTransform r a b = Ok c) /\
  (forall a b, In a (listTo r b) <-> exists c, getTransform r a b = Ok c) /\ (forall a b, In b (listFrom r a) <-> exists c, getTransform r a b = Ok c).
Proof.
  intros e l r. assert (inv r) as H by (apply rrun_inv, inv0). split; [apply H|]. split; [now apply getGraph_spec|].
  split; [intros; apply In_listAll|]. split; intros a b; rewrite <- In_listAll; unfold listTo, listFrom; rewrite in_map_iff; split.
  - intros ((x, y) & <- & Hf). apply filter_In in Hf. cbn in Hf. destruct Hf as (Hf & E). apply Nat.eqb_eq in E. now subst.
  - intros Hi. exists (a, b). split; auto. apply filter_In. split; auto. cbn. apply Nat.eqb_refl.
  - intros ((x, y) & <- & Hf). apply filter_In in Hf. cbn in Hf. destruct Hf as (Hf & E). apply Nat.eqb_eq in E. now subst.
  - intros Hi. exists (a, b). split; auto. apply filter_In. split; auto. cbn. apply Nat.eqb_refl.
Qed.
Print Assumptions C24_listings.

(** ** Paths and conversions.  [sp_ok e] says that networkx.shortest_path returns a shortest path if there
    is one; [shortest g a b p]: p is a path of edges of g from a to b, no path having fewer steps. *)
Theorem C24_path : forall e l a b, let r := rrun e reg0 l in sp_ok e -> a <> b ->
  (forall c, getTransform r a b = Ok c -> snd (getTransformPath e r a b) = Ok (inl c)) /\
  (getTransform r a b = Raise KeyError -> (forall x, snd (getTransformPath e r a b) = Ok x -> exists p, x = inr p /\ shortest (listAll r) a b p) /\
     ((exists q, is_path (listAll r) a b q) -> exists p, snd (getTransformPath e r a b) = Ok (inr p))).
Proof.
  intros e l a b r Hs Hab. assert (inv r) as H by (apply rrun_inv, inv0). split.
  - intros c G. unfold getTransformPath. unfold getTransform in G. destruct (dget pairb (a, b) (convs r)); [injection G as ->; reflexivity|discriminate].
  - intros G. now apply path_spec.
Qed.
Print Assumptions C24_path.
(** A conversion applies the registered functions along a shortest path, in order; it succeeds whenever a path
    exists and the functions do; and the result is of the class asked for if the functions return their classes. *)
Definition class_of (v : val) : option cls := match v with VObj o => Some (ocls o) | VMat _ _ => None end.
Definition functions_total e r := forall a b c v, getTransform r a b = Ok c -> exists w, applyConv e c v = Ok w.
Definition functions_typed e r := forall a b c v w, getTransform r a b = Ok c -> applyConv e c v = Ok w -> class_of w = Some b.
Theorem C24_convert : forall e l o to, let r := rrun e reg0 l in sp_ok e -> ocls o <> to ->
  (forall w, snd (convert e r o to) = Ok w -> 
     (exists p, shortest (listAll r) (ocls o) to p /\ along e r p (VObj o) w) /\ (functions_typed e r -> class_of w = Some to)) /\
  (functions_total e r -> (exists q, is_path (listAll r) (ocls o) to q) -> exists w, snd (convert e r o to) = Ok w).
Proof.
  intros e l o to r Hs Hab. assert (inv r) as H by (apply rrun_inv, inv0). split.
  - intros w Hw. destruct (convert_spec e r o to w H Hs Hab Hw) as (p & Hp & Ha). split; [eauto|]. intros Ht.
    assert (forall p v w, along e r p v w -> length p >= 2 -> class_of w = Some (last p 0)) as K.
    { clear p Hp Ha Hw w. intros p v w Ha. induction Ha as [|a b p v v' w c G A B IH]; cbn [length]; [lia|]. intros _.
      destruct p as [|x p]. { inversion B; subst. cbn. eapply Ht; eauto. }
      rewrite IH by (cbn; lia). reflexivity. }
    rewrite (K p (VObj o) w Ha).
    + f_equal. destruct Hp as ((_ & L & Hn & _) & _). rewrite <- L. clear - Hn. induction p as [|x p IH]; [congruence|]. destruct p as [|y p]; [reflexivity|]. cbn in *. apply IH. discriminate.
    + destruct Hp as (Hp & _). apply path_shape in Hp; auto. rewrite Hp. cbn. rewrite app_length. cbn. lia.
  - intros Ht Hq. now apply convert_total.
Qed.
Print Assumptions C24_convert.

(** ** Optimised conversions of matrix transformations *)
(** [matrix_path e r p ms]: the transformations registered along [p] are smatrix ones with the constant
    orthogonal matrices [ms] *)
Inductive matrix_path (e : env) (r : reg) : list cls -> list mat -> Prop :=
| mp_one z : matrix_path e r [z] []
| mp_cons a b p m ms f nc : getTransform r a b = Ok (Typed 0 f b 0) -> (forall v, sem e f v = Ok (VMat m nc)) -> orthogonal m ->
    matrix_path e r (b :: p) ms -> matrix_path e r (a :: b :: p) (m :: ms).
Definition product (ms : list mat) : mat := fold_left (fun k m => mm m k) ms idm.
Definition position_ok (c : coord) : Prop := coord_ok c /\ laterr c = None /\ longerr c = None.
Lemma fold_mm ms : forall k, fold_left (fun k m => mm m k) ms k = mm (product ms) k.
Proof.
  unfold product. induction ms as [|m ms IH]; intros k; cbn; [now rewrite mm_id_l|]. rewrite IH, (IH (mm m idm)), mm_id_r. symmetry. apply mm_assoc.
Qed.
Lemma orth_id : orthogonal idm. Proof. apply mat_eq; cbn; ring. Qed.
Lemma product_orth e r p ms : matrix_path e r p ms -> orthogonal (product ms).
Proof.
  induction 1 as [|a b p m ms f nc G S O B IH]; [exact orth_id|]. unfold product. cbn. rewrite fold_mm. apply orth_mm; [exact IH|]. now rewrite mm_id_r.
Qed.
Lemma apply_smatrix e m nc o to : position_ok (opos o) -> class_range (crange e to) -> orthogonal m ->
  exists c, applyType e 0 (VMat m nc) (VObj o) to = Ok (VObj (Obj to c 0)) /\ position_ok c /\ dir c = mv m (dir (opos o)).
Proof.
  intros (H1 & H2 & H3) Hr Ho. destruct (C22_smatrix m (opos o) (crange e to) H1 H2 H3 Hr Ho) as (n & E & A & B & C & D).
  exists n. cbn. rewrite E. split; [reflexivity|]. split; [split; auto|exact D].
Qed.
Lemma matrix_along e r p ms : matrix_path e r p ms -> (forall c, class_range (crange e c)) -> forall o w, position_ok (opos o) -> along e r p (VObj o) w ->
  exists o', w = VObj o' /\ position_ok (opos o') /\ dir (opos o') = mv (product ms) (dir (opos o)).
Proof.
  intros Hm Hr. induction Hm as [z|a b p m ms f nc G S O B IH]; intros o w Hp Ha.
  - inversion Ha; subst. exists o. split; [auto|]. split; [auto|]. symmetry. apply mv_id.
  - inversion Ha as [|? ? ? ? v' ? c G' A B']; subst. rewrite G in G'. injection G' as <-. cbn [applyConv] in A. rewrite S in A.
    destruct (apply_smatrix e m nc o b Hp (Hr b) O) as (c' & E & Hc & D). rewrite E in A. injection A as <-.
    destruct (IH (Obj b c' 0) w Hc B') as (o' & -> & Ho & D'). exists o'. split; [auto|]. split; [auto|]. cbn [opos] in D'. rewrite D', D, <- mv_mm.
    f_equal. unfold product. cbn. rewrite (fold_mm ms (mm m idm)), mm_id_r. reflexivity.
Qed.
Lemma build_matrix e r self p ms k z : matrix_path e r p ms -> last p z = z -> p <> [] -> 
  exists cc, buildSteps e r self p (Some k) = Ok ([SOpt (fold_left (fun k m => mm m k) ms k) z], cc).
Proof.
  intros Hm. revert k. induction Hm as [y|a b p m ms f nc G S O B IH]; intros k Hl Hn.
  - cbn in Hl. subst y. exists true. reflexivity.
  - destruct (IH (mm m k) Hl ltac:(discriminate)) as (cc & E). exists (cc && negb nc). unfold getTransform in G.
    cbn [buildSteps] in E |- *. destruct (dget pairb (a, b) (convs r)); [|discriminate]. injection G as ->. rewrite S. rewrite E. reflexivity.
Qed.
(** The cache of optimised conversions: an entry is what would be built now. *)
Definition cache_ok (e : env) (r : reg) : Prop := forall a b l, dget pairb (a, b) (ocache r) = Some l ->
  (exists c, getTransform r a b = Ok c /\ l = [SConv c]) \/
  (getTransform r a b = Raise KeyError /\ exists p self, sp e (listAll r) a b = Ok p /\ p <> [] /\ buildSteps e r self p None = Ok (l, true)).
(** histories in which no transformation type is redefined *)
Definition fresh_type (r : reg) (o : rop) : Prop := match o with OAddType n _ => dget Nat.eqb n (ttypes r) = None | _ => True end.
Fixpoint fresh_types (e : env) (r : reg) (l : list rop) : Prop := match l with [] => True | o :: t => fresh_type r o /\ fresh_types e (rstep e r o) t end.
Lemma build_cons e r self a b p acc : buildSteps e r self (a :: b :: p) acc =
    (match dget pairb (a, b) (convs r) with
      | None => Raise KeyError
      | Some c =>
          match c with
          | Typed _ f _ 0 =>
              match sem e f self with
              | Ok (VMat m nc) =>
                  match buildSteps e r self (b :: p) (Some (match acc with None => m | Some k => mm m k end)) with
                  | Ok (l, cc) => Ok (l, cc && negb nc) | q => q end
              | Ok _ => Raise TypeError
              | Raise ex => Raise ex | OutOfFuel => OutOfFuel
              end
          | _ => match buildSteps e r self (b :: p) acc with
                 | Ok (l, cc) => Ok (match acc with None => SConv c :: l | Some k => SOpt k a :: SConv c :: l end, cc) | q => q end
          end
      end).
Proof. reflexivity. Qed.
Lemma build_convs e r r' self p : convs r' = convs r -> forall acc, buildSteps e r' self p acc = buildSteps e r self p acc.
Proof.
  intros E. induction p as [|a p IH]; intros acc; [reflexivity|]. destruct p as [|b p]; [reflexivity|].
  rewrite !build_cons, E. destruct (dget pairb (a, b) (convs r)) as [c|]; [|reflexivity].
  destruct c as [f|t f to [|n]]; rewrite ?IH; try reflexivity.
  destruct (sem e f self) as [[|m nc]| |]; try reflexivity. rewrite IH. reflexivity.
Qed.
Lemma cache_same e r r' : convs r' = convs r -> ocache r' = ocache r -> cache_ok e r -> cache_ok e r'.
Proof.
  intros E1 E2 H a b l Hl. rewrite E2 in Hl. destruct (H a b l Hl) as [(c & G & ->)|(G & p & self & S & N & B)]; [left|right].
  - exists c. unfold getTransform in *. rewrite E1. auto.
  - unfold getTransform in *. rewrite E1. split; [auto|]. exists p, self. unfold listAll in *. rewrite E1. split; [auto|]. split; [auto|]. rewrite (build_convs e r r') by auto. exact B.
Qed.
Lemma convertLL_cache e r o to opt : inv r -> cache_ok e r -> cache_ok e (fst (convertLL e r o to opt)).
Proof.
  intros Hi H. unfold convertLL. destruct (to =? ocls o); [auto|]. destruct opt.
  2: { destruct (convert_state e r o to Hi) as (_ & A & _ & B). eapply cache_same; eauto. }
  destruct (dget pairb (ocls o, to) (ocache r)); [auto|]. destruct (path_state e r (ocls o) to Hi) as (_ & Ec & Eo & _).
  unfold getTransformPath in *. destruct (dget pairb (ocls o, to) (convs r)) as [c|] eqn:G.
  - cbn [fst]. intros a b l. cbn [ocache]. rewrite (dget_dset _ pairb_true). destruct (pairb (a, b) (ocls o, to)) eqn:P.
    2: { intros El. destruct (H a b l El) as [Q|(Q & p' & self & S & N & B')]; [left; exact Q|right]. split; [exact Q|].
         exists p', self. split; [exact S|]. split; [exact N|]. rewrite (build_convs e r); auto. }
    apply pairb_true in P. injection P as -> ->. intros E. injection E as <-. left. exists c. unfold getTransform. cbn [convs]. rewrite G. auto.
  - destruct (getGraph_spec r Hi) as (_ & Eg & _). destruct (getGraph r) as (r', g). cbn [fst snd] in *. subst g.
    destruct (sp e (listAll r) (ocls o) to) as [[|x p]|ex|] eqn:Sp; cbn [fst snd] in *; try (eapply cache_same; eauto; fail).
    destruct (buildSteps e r' (VObj o) (x :: p) None) as [(l, [|])|ex|] eqn:B; cbn [fst]; try (eapply cache_same; eauto; fail).
    intros a b l'. cbn [ocache]. rewrite (dget_dset _ pairb_true). destruct (pairb (a, b) (ocls o, to)) eqn:P.
    + apply pairb_true in P. injection P as -> ->. intros E. injection E as <-. right. unfold getTransform, listAll. cbn [convs]. rewrite Ec, G. split; [auto|].
      exists (x :: p), (VObj o). split; [exact Sp|]. split; [discriminate|]. rewrite (build_convs e r'); auto.
    + assert (cache_ok e r') as H' by (eapply cache_same; eauto). intros El. destruct (H' a b l' El) as [Q|(Q & p' & self & S & N & B')]; [left; exact Q|right]. split; [exact Q|].
      exists p', self. split; [exact S|]. split; [exact N|]. rewrite (build_convs e r'); auto.
Qed.
Lemma rstep_cache e r o : inv r -> fresh_type r o -> cache_ok e r -> cache_ok e (rstep e r o).
Proof.
  intros Hi Hf H. destruct o as [a b f ty ow|a b|n t| |a b|o to|o to opt]; cbn [rstep].
  - unfold registerTransform. destruct a as [a|], b as [b|]; auto. destruct (negb ow && _); [auto|]. destruct ty as [n|].
    + destruct (dget Nat.eqb n (ttypes r)); [|auto]. intros ? ? ? E. discriminate.
    + intros ? ? ? E. discriminate.
  - unfold delTransform. destruct (dget _ _ _); [|auto]. intros ? ? ? E. discriminate.
  - apply (cache_same e r); auto. unfold addTransType. cbn [fresh_type] in Hf. rewrite Hf. reflexivity.
  - destruct (getGraph_spec r Hi) as (_ & _ & A & _ & B). eapply cache_same; eauto.
  - destruct (path_state e r a b Hi) as (_ & A & B & _). eapply cache_same; eauto.
  - destruct (convert_state e r o to Hi) as (_ & A & _ & B). eapply cache_same; eauto.
  - now apply convertLL_cache.
Qed.
Lemma rrun_cache e l r : inv r -> fresh_types e r l -> cache_ok e r -> cache_ok e (rrun e r l).
Proof.
  revert r. induction l as [|o l IH]; intros r Hi Hf H; [exact H|]. destruct Hf as (H1 & H2). cbn. apply IH; [now apply rstep_inv|exact H2|now apply rstep_cache].
Qed.
(** what an optimised conversion executes *)
Lemma opt_steps e r o to : inv r -> cache_ok e r -> ocls o <> to -> 
  (forall c, getTransform r (ocls o) to = Ok c -> snd (convertLL e r o to true) = applyConv e c (VObj o)) /\
  (forall p, getTransform r (ocls o) to = Raise KeyError -> sp e (listAll r) (ocls o) to = Ok p -> p <> [] -> 
     (forall self, exists l cc, buildSteps e r self p None = Ok (l, cc)) ->
     exists self l cc, buildSteps e r self p None = Ok (l, cc) /\ snd (convertLL e r o to true) = runSteps e l (VObj o)).
Proof.
  intros Hi Hc Hab. assert (to =? ocls o = false) as Hne by (apply Nat.eqb_neq; auto). unfold convertLL. rewrite Hne. split.
  - intros c G. destruct (dget pairb (ocls o, to) (ocache r)) as [l|] eqn:E.
    + destruct (Hc _ _ _ E) as [(c' & G' & ->)|(G' & _)]; [|congruence]. assert (c' = c) as -> by congruence. cbn. destruct (applyConv e c (VObj o)); reflexivity.
    + unfold getTransformPath. unfold getTransform in G. destruct (dget pairb (ocls o, to) (convs r)); [|discriminate]. injection G as ->. cbn. destruct (applyConv e c (VObj o)); reflexivity.
  - intros p G Sp Hn Hb. destruct (dget pairb (ocls o, to) (ocache r)) as [l|] eqn:E.
    + destruct (Hc _ _ _ E) as [(c' & G' & _)|(_ & p' & self & S & _ & B)]; [congruence|]. rewrite Sp in S. injection S as <-. exists self, l, true. auto.
    + unfold getTransformPath. unfold getTransform in G. destruct (dget pairb (ocls o, to) (convs r)); [discriminate|].
      destruct (getGraph_spec r Hi) as (_ & Eg & Ec & _). destruct (getGraph r) as (r', g). cbn [fst snd] in *. subst g. rewrite Sp. destruct p as [|x p]; [congruence|].
      destruct (Hb (VObj o)) as (l & cc & B). exists (VObj o), l, cc. split; [exact B|]. rewrite (build_convs e r r') by auto. rewrite B. destruct cc; reflexivity.
Qed.
Lemma build_product e r self p ms z : matrix_path e r p ms -> last p z = z -> length p >= 2 -> exists cc, buildSteps e r self p None = Ok ([SOpt (product ms) z], cc).
Proof.
  intros Hm Lp L2. destruct Hm as [y|a b p0 m ms0 f nc G S O B]; [cbn in L2; lia|].
  destruct (build_matrix e r self (b :: p0) ms0 m z B) as (cc & E); [exact Lp|discriminate|].
  exists (cc && negb nc). unfold product. cbn [fold_left]. rewrite mm_id_r. unfold getTransform in G. cbn [buildSteps] in E |- *.
  destruct (dget pairb (a, b) (convs r)); [|discriminate]. injection G as ->. rewrite S. rewrite E. reflexivity.
Qed.
(** After any history (without redefinition of a transformation type), conversions with and without optimize
    agree: exactly, for a directly registered transformation; along a path of constant matrix transformations
    they give objects of the target class in the same direction, the product of the matrices applied to the original. *)
Theorem C24_optimized : forall e l o to, let r := rrun e reg0 l in fresh_types e reg0 l ->
  sp_ok e -> (forall c, class_range (crange e c)) -> position_ok (opos o) -> ocls o <> to -> 
  (forall c, getTransform r (ocls o) to = Ok c -> snd (convertLL e r o to true) = snd (convertLL e r o to false)) /\
  (forall p ms, getTransform r (ocls o) to = Raise KeyError -> snd (getTransformPath e r (ocls o) to) = Ok (inr p) -> matrix_path e r p ms ->
   exists o1 o2 x1 x2, snd (convertLL e r o to true) = Ok (VObj (Obj to o1 x1)) /\ snd (convertLL e r o to false) = Ok (VObj (Obj to o2 x2)) /\
    position_ok o1 /\ position_ok o2 /\ dir o1 = dir o2 /\ dir o1 = mv (product ms) (dir (opos o))).
Proof.
  intros e l o to r Hf Hs Hr Hp Hab. assert (inv r) as Hi by (apply rrun_inv, inv0).
  assert (cache_ok e r) as Hc. { apply rrun_cache; [exact inv0|exact Hf|]. intros ? ? ? E. discriminate. }
  assert (to =? ocls o = false) as Hne by (apply Nat.eqb_neq; auto). destruct (opt_steps e r o to Hi Hc Hab) as (O1 & O2). split.
  { intros c G. rewrite (O1 c G). unfold convertLL. rewrite Hne. unfold convert, getTransformPath. unfold getTransform in G.
    destruct (dget pairb (ocls o, to) (convs r)); [|discriminate]. injection G as ->. reflexivity. }
  intros p ms Hg Hpath Hm.
  destruct (path_spec e r _ _ Hi Hs Hab Hg) as (P1 & _). destruct (P1 _ Hpath) as (p' & Ep & Hsh). injection Ep as <-.
  pose proof (path_shape _ _ _ _ Hab (proj1 Hsh)) as Shape. destruct (path_state e r (ocls o) to Hi) as (_ & Ec & Eo & _).
  assert (length p >= 2) as L2 by (rewrite Shape; cbn; rewrite app_length; cbn; lia).
  (* unoptimised *)
  assert (exists w, along e r p (VObj o) w) as (w & Hw).
  { clear - Hm Hr Hp. revert o Hp. induction Hm as [z|a b p m ms f nc G S O B IH]; intros o Hp.
    - exists (VObj o). constructor.
    - destruct (apply_smatrix e m nc o b Hp (Hr b) O) as (c' & E & Hc & D). destruct (IH (Obj b c' 0) Hc) as (w & W).
      exists w. econstructor; [exact G| |exact W]. cbn [applyConv]. rewrite S. exact E. }
  destruct (matrix_along e r p ms Hm Hr o w Hp Hw) as (o2 & -> & Hp2 & D2).
  assert (last p to = to) as Lp. { destruct Hsh as ((_ & L & Hn & _) & _). clear - L Hn. revert L. generalize (ocls o). induction p as [|x p IH]; [congruence|]. destruct p as [|y p]; [cbn; auto|]. intros c0 L. apply (IH ltac:(discriminate) c0). exact L. }
  assert (ocls o2 = to) as Cls.
  { assert (forall p ms v w, matrix_path e r p ms -> along e r p v w -> length p >= 2 -> class_of w = Some (last p to)) as K.
    { clear. intros p ms v w Hm. revert v. induction Hm as [z|a b p m ms f nc G S O B IH]; intros v Ha; [cbn; lia|]. intros _.
      inversion Ha as [|? ? ? ? v' ? c G' A B']; subst. rewrite G in G'. injection G' as <-. destruct p as [|x p]; [|apply (IH v' B'); cbn; lia].
      inversion B'; subst. cbn in A. rewrite S in A. destruct v as [ov|]; [|discriminate]. destruct (smatrix _ _ _) as [c'| |]; try discriminate. injection A as <-. reflexivity. }
    specialize (K p ms _ _ Hm Hw L2). rewrite Lp in K. cbn in K. congruence. }
  (* optimised *)
  assert (sp e (listAll r) (ocls o) to = Ok p) as Sp.
  { unfold getTransformPath in Hpath. unfold getTransform in Hg. destruct (dget pairb (ocls o, to) (convs r)); [discriminate|].
    destruct (getGraph_spec r Hi) as (_ & Eg & _). destruct (getGraph r) as (r', g). cbn [fst snd] in *. subst g.
    destruct (sp e (listAll r) (ocls o) to) as [[|x q]|ex|]; cbn in Hpath; congruence. }
  assert (forall self, exists cc, buildSteps e r self p None = Ok ([SOpt (product ms) to], cc)) as Bp by (intros; now apply build_product).
  destruct (O2 p Hg Sp) as (self & sl & cc & Bs & Er); [intros ->; cbn in L2; lia|intros self; destruct (Bp self) as (cc & E); eauto|].
  destruct (Bp self) as (cc' & Bs'). rewrite Bs in Bs'. injection Bs' as -> ->.
  destruct (apply_smatrix e (product ms) false o to Hp (Hr to) (product_orth _ _ _ _ Hm)) as (c1 & E1 & Hc1 & D1).
  destruct o2 as [cl2 c2 x2]. cbn in Cls, Hp2, D2. subst cl2. exists c1, c2, 0, x2. split; [|split; [|split; [auto|split; [auto|split; [congruence|auto]]]]].
  - rewrite Er. cbn [runSteps applyStep]. rewrite E1. reflexivity.
  - unfold convertLL. rewrite Hne. unfold convert. destruct (getTransformPath e r (ocls o) to) as (r', x). cbn in Hpath, Ec. subst x. cbn [snd].
    apply follow_along. rewrite <- Shape. eapply along_convs; [|exact Hw]. now rewrite Ec.
Qed.
Print Assumptions C24_optimized.

(** ** Non-vacuity: a world with three classes, a matrix transformation 0 -> 1 -> 2 (a quarter turn each) and 2 -> 3 by a plain function *)
Definition quarter : mat := M 0 1 0 (-1) 0 0 0 0 1.
Definition world : env := Env (fun f v => match f with 0 => Ok (VMat quarter false) | _ => Ok (match v with VObj o => VObj (Obj f (opos o) 0) | w => w end) end)
  (fun _ _ o to => Ok (match o with VObj o => VObj (Obj to (opos o) 0) | w => w end)) (fun _ => RNone) sp_bfs.
Definition history : list rop := [ORegister (Some 0) (Some 1) 0 (Some 0) true; ORegister (Some 1) (Some 2) 0 (Some 0) true; ORegister (Some 2) (Some 3) 3 None true;
  ORegister None (Some 1) 0 None true; ORegister (Some 3) (Some 0) 0 None true; ODelete 3 0; ODelete 7 7].
Definition c45 : coord := C (Ang (rad 45) latrange) (Ang (rad 10) None) None None.
Lemma quarter_orth : orthogonal quarter. Proof. apply mat_eq; cbn; ring. Qed.
Example C24_ex : let r := rrun world reg0 history in
  sp_ok world /\ fresh_types world reg0 history /\ listAll r = [(0, 1); (1, 2); (2, 3)] /\
  snd (getTransformPath world r 0 3) = Ok (inr [0; 1; 2; 3]) /\ snd (getTransformPath world r 0 2) = Ok (inr [0; 1; 2]) /\
  matrix_path world r [0; 1; 2] [quarter; quarter] /\ position_ok c45 /\ class_range (crange world 2).
Proof.
  cbv zeta. split; [now apply sp_bfs_ok|]. split; [cbn; tauto|]. split; [reflexivity|]. split; [reflexivity|]. split; [reflexivity|]. split; [|split].
  - eapply mp_cons with (f := 0) (nc := false); [reflexivity|reflexivity|exact quarter_orth|].
    eapply mp_cons with (f := 0) (nc := false); [reflexivity|reflexivity|exact quarter_orth|constructor].
  - pose proof PI_RGT_0. split; [|split; reflexivity]. repeat split; unfold lat_in, rad; cbn; unfold rad; lra.
  - left. reflexivity.
Qed.
(** ** Refutations *)
(** Without a path the exception is networkx's (UserExn 0), not the documented NotImplementedError. *)
Theorem C24_no_path_exception_refuted : sp_ok world /\ snd (getTransformPath world reg0 0 1) = Raise (UserExn 0).
Proof. split; [now apply sp_bfs_ok|reflexivity]. Qed.
(** Converting to one's own class raises KeyError (classes that are not LatLongCoordinates). *)
Theorem C24_self_conversion_refuted : snd (convert world (rrun world reg0 history) (Obj 0 c45 0) 0) = Raise KeyError.
Proof. reflexivity. Qed.
(** Redefining a transformation type makes all transformations of the type use the last base function and
    target class: here 0 -> 1 becomes the transformation to class 2. *)
Theorem C24_redefined_type_refuted : forall e, let r := rrun e reg0 [OAddType 5 1; ORegister (Some 0) (Some 1) 8 (Some 5) true; ORegister (Some 0) (Some 2) 9 (Some 5) true; OAddType 5 1] in
  getTransform r 0 1 = Ok (Typed 1 9 2 5) /\ getTransform r 0 2 = Ok (Typed 1 9 2 5).
Proof. intros e. split; reflexivity. Qed.
(** ... and the cached conversions still use the old type function. *)
Theorem C24_stale_cache_refuted : let o := Obj 0 c45 0 in
  let r := rrun world reg0 [OAddType 5 1; ORegister (Some 0) (Some 1) 8 (Some 5) true; OConvertLL o 1 true; OAddType 5 2] in
  getTransform r 0 1 = Ok (Typed 2 8 1 5) /\ forall e, snd (convertLL e r o 1 true) = applyConv e (Typed 1 8 1 5) (VObj o).
Proof.
  cbv zeta. split; [reflexivity|]. intros e. unfold convertLL. cbn [ocls]. change (1 =? 0) with false. cbv iota.
  change (dget pairb (0, 1) (ocache _)) with (Some [SConv (Typed 1 8 1 5)]). cbv iota. cbn [snd runSteps applyStep]. destruct (applyConv e _ _); reflexivity.
Qed.
(** An optimised path in which a plain transformation follows a matrix applies the matrix twice. *)
Theorem C24_mixed_path_refuted : 
  buildSteps world (rrun world reg0 history) (VObj (Obj 1 c45 0)) [1; 2; 3] None = Ok ([SOpt quarter 2; SConv (Plain 3); SOpt quarter 3], true).
Proof. reflexivity. Qed.
