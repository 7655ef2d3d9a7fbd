(** * DerivedProofs: invariants of DerivedModel *)
From Coq Require Import List ZArith Lia Bool Arith.
From Verif Require Import PyBase FieldModel FieldProofs DerivedModel DerivedSpec.
Import ListNotations.

Lemma mem_In d l : mem d l = true <-> In d l.
Proof. unfold mem. rewrite existsb_exists. split; [intros (x & H & E); apply Nat.eqb_eq in E; now subst|intros H; exists d; split; [auto|apply Nat.eqb_refl]]. Qed.
Lemma mem_nIn d l : mem d l = false <-> ~ In d l. Proof. rewrite <- mem_In. destruct (mem d l); split; congruence. Qed.
Lemma upd_eq {B} (m : nat -> B) k x : upd m k x k = x. Proof. unfold upd. now rewrite Nat.eqb_refl. Qed.
Lemma upd_ne {B} (m : nat -> B) k x n : n <> k -> upd m k x n = m n. Proof. intros H. unfold upd. apply Nat.eqb_neq in H. now rewrite H. Qed.
Lemma bound_len (l : list nat) N : NoDup l -> (forall x, In x l -> x < N) -> length l <= N.
Proof. intros H1 H2. rewrite <- (seq_length N 0). apply NoDup_incl_length; auto. intros x Hx. apply in_seq. specialize (H2 x Hx). lia. Qed.

Section P.
Context {A : Type}.
Variable fn : nat -> list A -> @res A.
Variable deps : nat -> list dep.
Variable locate : nat -> nat -> @res nat.
Variable N : nat.
Variable int_src : Z -> nat.
Hypothesis fn_fuel : forall d xs, fn d xs <> OutOfFuel.
Hypothesis locate_fuel : forall n x, locate n x <> OutOfFuel.
Notation st := (@st A).
Notation invalidate := (@invalidate A).
Notation notify := (@notify A N).
Notation eval := (@eval A fn deps locate).
Notation populate := (@populate A deps locate).

Notation target := (@target locate).
Notation recompute := (@recompute A fn deps locate).
Notation curr := (@curr A fn deps locate).
Lemma recompute_S fl pn h d : recompute fl pn (S h) d = match all_some (map (target pn d) (deps d)) with None => None | Some fs => match all_vals (map (curr fl pn h) fs) with None => None | Some xs => match fn d xs with Ok v => Some v | _ => None end end end.
Proof. reflexivity. Qed.
Lemma all_vals_mono {F} (g g' : F -> option A) l xs : (forall x y, In x l -> g x = Some y -> g' x = Some y) -> all_vals (map g l) = Some xs -> all_vals (map g' l) = Some xs.
Proof.
  revert xs. induction l as [|a l IH]; intros xs H E; [exact E|]. cbn [map all_vals] in *. destruct (g a) as [y|] eqn:Ga; [|discriminate]. rewrite (H a y (or_introl eq_refl) Ga). destruct (all_vals (map g l)) as [ys|] eqn:El; [|discriminate]. rewrite (IH ys); auto. intros x z Hx. apply H. now right.
Qed.
Lemma recompute_mono1 fl pn h : forall d v, recompute fl pn h d = Some v -> recompute fl pn (S h) d = Some v.
Proof.
  induction h as [|h IH]; intros d v E; [discriminate|]. rewrite recompute_S in *. destruct (all_some _) as [fs|]; [|discriminate]. destruct (all_vals (map (curr fl pn h) fs)) as [xs|] eqn:Ev; [|discriminate].
  rewrite (all_vals_mono (curr fl pn h) (curr fl pn (S h)) fs xs); auto. intros f y _ Q. unfold curr in *. destruct (fl f) as [|w l]; [auto|]. destruct (v_der w); [apply IH; auto|auto].
Qed.
Lemma recompute_mono fl pn h h' d v : h <= h' -> recompute fl pn h d = Some v -> recompute fl pn h' d = Some v.
Proof. induction 1; auto. intros. apply recompute_mono1. auto. Qed.
Lemma recompute_det fl pn h h' d v v' : recompute fl pn h d = Some v -> recompute fl pn h' d = Some v' -> v = v'.
Proof. intros E E'. apply (recompute_mono fl pn h (Nat.max h h')) in E; [|lia]. apply (recompute_mono fl pn h' (Nat.max h h')) in E'; [|lia]. congruence. Qed.

(** ** cached values are fresh *)
Inductive FreshV (s : st) : nat -> A -> Prop :=
| FV_intro d fs xs v : all_some (refs s d) = Some fs -> FVs s fs xs -> fn d xs = Ok v -> FreshV s d v
with FVs (s : st) : list nat -> list A -> Prop :=
| FV_nil : FVs s [] []
| FV_cons f fs x xs : FVf s f x -> FVs s fs xs -> FVs s (f :: fs) (x :: xs)
with FVf (s : st) : nat -> A -> Prop :=
| FV_obs f v l : flds s f = v :: l -> v_der v = None -> FVf s f (v_val v)
| FV_der f v l e x : flds s f = v :: l -> v_der v = Some e -> valid s e = true -> cache s e = Some x -> FreshV s e x -> FVf s f x.
Scheme FreshV_mut := Induction for FreshV Sort Prop with FVs_mut := Induction for FVs Sort Prop with FVf_mut := Induction for FVf Sort Prop.

Record Inv (s : st) : Prop := {
  I_refs : forall d, Forall2 (fun p r => match r with Some f => target (pnode s) d p = Some f | None => exists nm, p = DName nm end) (deps d) (refs s d);
  I_reg : forall d f, d < N -> In (Some f) (refs s d) -> In d (nots s f);
  I_bound : forall f d, In d (nots s f) -> d < N;
  I_der : forall f v e, In v (flds s f) -> v_der v = Some e -> dfield s e = Some f /\ e < N;
  I_own : forall d, In d (own s) <-> dfield s d <> None;
  I_valid : forall d, valid s d = true -> d < N /\ exists v, cache s d = Some v /\ FreshV s d v }.

Record ext (s s' : st) : Prop := {
  E_flds : flds s' = flds s; E_own : own s' = own s; E_df : dfield s' = dfield s; E_pn : pnode s' = pnode s;
  E_refs : forall d fs, all_some (refs s d) = Some fs -> refs s' d = refs s d;
  E_valid : forall d, valid s d = true -> valid s' d = true /\ cache s' d = cache s d }.
Lemma ext_refl s : ext s s. Proof. constructor; auto. Qed.
Lemma ext_trans a b c : ext a b -> ext b c -> ext a c.
Proof.
  intros [f1 o1 d1 p1 r1 v1] [f2 o2 d2 p2 r2 v2]. constructor; try congruence.
  - intros d fs E. rewrite (r2 d fs); [eauto|]. now rewrite (r1 d fs E).
  - intros d E. destruct (v1 d E) as (A1 & A2). destruct (v2 d A1) as (B1 & B2). split; congruence.
Qed.
Lemma FreshV_ext s s' : ext s s' -> (forall d v, FreshV s d v -> FreshV s' d v) /\ (forall fs xs, FVs s fs xs -> FVs s' fs xs) /\ (forall f x, FVf s f x -> FVf s' f x).
Proof.
  intros X.
  assert (forall d v, FreshV s d v -> FreshV s' d v) as K.
  { apply (FreshV_mut s (fun d v _ => FreshV s' d v) (fun fs xs _ => FVs s' fs xs) (fun f x _ => FVf s' f x)).
    - intros d fs xs v E _ IH F. apply (FV_intro s' d fs xs v); auto. rewrite (E_refs _ _ X d fs E). exact E.
    - constructor.
    - intros. constructor; auto.
    - intros f v l E Dn. eapply FV_obs; eauto. rewrite (E_flds _ _ X). exact E.
    - intros f v l e x E De V C _ IH. destruct (E_valid _ _ X e V) as (V' & C'). eapply FV_der; eauto; [rewrite (E_flds _ _ X); exact E|congruence]. }
  assert (forall f x, FVf s f x -> FVf s' f x) as Kf.
  { intros f x H. destruct H as [f v l E Dn|f v l e x E De V C F]; [eapply FV_obs; eauto; rewrite (E_flds _ _ X); exact E|]. destruct (E_valid _ _ X e V) as (V' & C'). eapply FV_der; eauto; [rewrite (E_flds _ _ X); exact E|congruence]. }
  split; [exact K|]. split; [|exact Kf]. intros fs xs H. induction H; constructor; auto.
Qed.

(** refs that are all there are the targets *)
Lemma all_some_target pn d ds rs fs : Forall2 (fun p r => match r with Some f => target pn d p = Some f | None => exists nm, p = DName nm end) ds rs -> all_some rs = Some fs -> all_some (map (target pn d) ds) = Some fs.
Proof.
  intros H. revert fs. induction H as [|p r ds rs H0 H IH]; intros fs E; [exact E|]. cbn [map all_some] in *. destruct r as [f|]; [|discriminate]. destruct (all_some rs) as [y|]; [|discriminate]. rewrite H0, (IH y eq_refl). exact E.
Qed.
Lemma FreshV_recompute s : Inv s -> forall d v, FreshV s d v -> exists h, recompute (flds s) (pnode s) h d = Some v.
Proof.
  intros HI. apply (FreshV_mut s (fun d v _ => exists h, recompute (flds s) (pnode s) h d = Some v) (fun fs xs _ => exists h, all_vals (map (curr (flds s) (pnode s) h) fs) = Some xs) (fun f x _ => exists h, curr (flds s) (pnode s) h f = Some x)).
  - intros d fs xs v E _ (h & IH) F. exists (S h). rewrite recompute_S. rewrite (all_some_target _ _ _ _ fs (I_refs s HI d) E), IH, F. reflexivity.
  - exists 0. reflexivity.
  - intros f fs x xs _ (h1 & H1) _ (h2 & H2). exists (Nat.max h1 h2). cbn [map all_vals].
    assert (forall h f y, curr (flds s) (pnode s) h f = Some y -> forall h', h <= h' -> curr (flds s) (pnode s) h' f = Some y) as M. { intros h g y Q h' L. unfold curr in *. destruct (flds s g) as [|w l]; [auto|]. destruct (v_der w); [eapply recompute_mono; eauto|auto]. }
    rewrite (M h1 f x H1) by lia. rewrite (all_vals_mono (curr (flds s) (pnode s) h2) _ fs xs) by (auto; intros; eapply M; eauto; lia). reflexivity.
  - intros f v l E Dn. exists 0. unfold curr. now rewrite E, Dn.
  - intros f v l e x E De _ _ _ (h & IH). exists h. unfold curr. now rewrite E, De.
Qed.

(** ** populate *)
Lemma populate_from_spec n d pn : pn d = Some n -> d < N -> forall ds rs nt rs' nt' r,
  Forall2 (fun p r => match r with Some f => target pn d p = Some f | None => exists nm, p = DName nm end) ds rs ->
  (forall f, In (Some f) rs -> In d (nt f)) -> (forall f e, In e (nt f) -> e < N) -> populate_from locate n d ds rs nt = (rs', nt', r) ->
  Forall2 (fun p r => match r with Some f => target pn d p = Some f | None => exists nm, p = DName nm end) ds rs' /\ (forall f, In (Some f) rs' -> In d (nt' f)) /\ (forall f e, In e (nt' f) -> e < N) /\
  (forall f e, In e (nt f) -> In e (nt' f)) /\ (forall fs, r = Ok fs -> all_some rs' = Some fs) /\ r <> OutOfFuel /\ (forall fs, all_some (map (target pn d) ds) = Some fs -> r = Ok fs).
Proof.
  intros Pn Hd ds. induction ds as [|p ds IH]; intros rs nt rs' nt' r F Reg Bd E; inversion F as [|? q ? rs0 H0 F']; subst.
  - cbn in E. injection E as <- <- <-. repeat split; auto; try congruence; intros fs Q; cbn in *; congruence.
  - destruct q as [f|].
    + assert (populate_from locate n d (p :: ds) (Some f :: rs0) nt = let '(rs', nt', r) := populate_from locate n d ds rs0 nt in (Some f :: rs', nt', match r with Ok l => Ok (f :: l) | r => r end)) as Q by (destruct p; reflexivity). rewrite Q in E. clear Q.
      destruct (populate_from locate n d ds rs0 nt) as ((rs1, nt1), r1) eqn:E1. injection E as <- <- <-. destruct (IH rs0 nt rs1 nt1 r1 F' (fun g Hg => Reg g (or_intror Hg)) Bd E1) as (B1 & B2 & B3 & B4 & B5 & B6 & B7).
      split; [constructor; auto|]. split; [intros g [Eg|Hg]; [injection Eg as <-; apply B4, Reg; left; auto|auto]|]. split; [auto|]. split; [auto|]. split; [intros fs Er; destruct r1; try discriminate; injection Er as <-; cbn; now rewrite (B5 _ eq_refl)|]. split; [destruct r1; congruence|].
      intros fs Et. cbn [map all_some] in Et. rewrite H0 in Et. destruct (all_some (map (target pn d) ds)) as [y|]; [|discriminate]. rewrite (B7 y eq_refl). congruence.
    + destruct H0 as (nm & ->). cbn [populate_from] in E. destruct (locate n nm) as [f|e|] eqn:El.
      * destruct (populate_from locate n d ds rs0 (upd nt f (nt f ++ [d]))) as ((rs1, nt1), r1) eqn:E1. injection E as <- <- <-.
        assert (forall g e, In e (nt g) -> In e (upd nt f (nt f ++ [d]) g)) as Up. { intros g e He. destruct (Nat.eq_dec g f) as [->|Ng]; [rewrite upd_eq; apply in_app_iff; auto|rewrite upd_ne by auto; auto]. }
        destruct (IH rs0 (upd nt f (nt f ++ [d])) rs1 nt1 r1 F') as (B1 & B2 & B3 & B4 & B5 & B6 & B7).
        { intros g Hg. apply Up, Reg. now right. }
        { intros g e He. destruct (Nat.eq_dec g f) as [->|Ng]; [rewrite upd_eq in He; apply in_app_iff in He; destruct He as [He|[<-|[]]]; [eapply Bd; eauto|auto]|rewrite upd_ne in He by auto; eapply Bd; eauto]. }
        { exact E1. }
        assert (target pn d (DName nm) = Some f) as T by (cbn; now rewrite Pn, El).
        split; [constructor; auto|]. split; [intros g [Eg|Hg]; [injection Eg as <-; apply B4; rewrite upd_eq; apply in_app_iff; right; left; auto|auto]|]. split; [auto|]. split; [intros g e He; apply B4, Up, He|]. split; [intros fs Er; destruct r1; try discriminate; injection Er as <-; cbn; now rewrite (B5 _ eq_refl)|]. split; [destruct r1; congruence|].
        intros fs Et. cbn [map all_some] in Et. rewrite T in Et. destruct (all_some (map (target pn d) ds)) as [y|]; [|discriminate]. rewrite (B7 y eq_refl). congruence.
      * injection E as <- <- <-. split; [auto|]. split; [auto|]. split; [auto|]. split; [auto|]. split; [discriminate|]. split; [discriminate|]. intros fs Et. cbn in Et. rewrite Pn, El in Et. discriminate.
      * elim (locate_fuel n nm El).
Qed.
Lemma populate_ok s d s' r : Inv s -> d < N -> valid s d = false -> populate d s = (s', r) ->
  Inv s' /\ ext s s' /\ valid s' = valid s /\ (forall fs, r = Ok fs -> all_some (refs s' d) = Some fs) /\ r <> OutOfFuel /\ (forall fs, all_some (map (target (pnode s) d) (deps d)) = Some fs -> r = Ok fs).
Proof.
  intros HI Hd Hv E. unfold DerivedModel.populate in E. destruct (all_some (refs s d)) as [l|] eqn:El.
  - injection E as <- <-. split; [auto|]. split; [apply ext_refl|]. split; [auto|]. split; [intros fs Q; congruence|]. split; [discriminate|]. intros fs Q. rewrite (all_some_target _ _ _ _ l (I_refs s HI d) El) in Q. congruence.
  - destruct (pnode s d) as [n|] eqn:Pn.
    + destruct (populate_from locate n d (deps d) (refs s d) (nots s)) as ((rs, nt), r1) eqn:E1. injection E as <- <-.
      destruct (populate_from_spec n d (pnode s) Pn Hd _ _ _ _ _ _ (I_refs s HI d) (fun f H => I_reg s HI d f Hd H) (fun f e H => I_bound s HI f e H) E1) as (B1 & B2 & B3 & B4 & B5 & B6 & B7).
      assert (ext s (with_refs s (upd (refs s) d rs) nt)) as X. { constructor; cbn; auto. intros d0 fs Q. apply upd_ne. congruence. }
      split; [|split; [exact X|split; [reflexivity|split; [intros fs Q; cbn; rewrite upd_eq; auto|split; [exact B6|exact B7]]]]].
      constructor; cbn.
      * intros d0. destruct (Nat.eq_dec d0 d) as [->|Nd]; [rewrite upd_eq; exact B1|rewrite upd_ne by auto; apply (I_refs s HI)].
      * intros d0 f H0 Hin. destruct (Nat.eq_dec d0 d) as [->|Nd]; [rewrite upd_eq in Hin; auto|rewrite upd_ne in Hin by auto; apply B4, (I_reg s HI); auto].
      * exact B3.
      * apply (I_der s HI).
      * apply (I_own s HI).
      * intros d0 V. destruct (I_valid s HI d0 V) as (L & v & C & F). split; [auto|]. exists v. split; [auto|]. apply (proj1 (FreshV_ext _ _ X)). exact F.
    + injection E as <- <-. split; [auto|]. split; [apply ext_refl|]. split; [auto|]. split; [discriminate|]. split; [discriminate|]. intros fs Q. exfalso.
      pose proof (I_refs s HI d) as F. clear -El Q F Pn. revert El fs Q F. generalize (refs s d) as rs. induction (deps d) as [|p ds IH]; intros rs El fs Q F0; inversion F0 as [|? q ? rs0 H0 F']; subst; [discriminate|]. cbn [map all_some] in *. destruct q as [f|].
      * rewrite H0 in Q. destruct (all_some rs0) as [y|] eqn:E0; [discriminate|]. destruct (all_some (map _ ds)) as [z|] eqn:Ez; [|discriminate]. eapply (IH rs0); eauto.
      * destruct H0 as (nm & ->). cbn in Q. rewrite Pn in Q. discriminate.
Qed.

(** ** evaluation keeps the invariant, only adds correct caches, and never validates what is being computed *)
Definition good (stack : list nat) (s s' : st) : Prop := Inv s' /\ ext s s' /\ (forall t, In t stack -> valid s t = false -> valid s' t = false).
Definition evd_ok (stack : list nat) (evd : nat -> st -> st * @res (option A)) : Prop :=
  forall e s s' r, Inv s -> e < N -> evd e s = (s', r) -> good stack s s' /\ forall x, r = Ok (Some x) -> valid s' e = true /\ cache s' e = Some x.
Lemma good_refl stack s : Inv s -> good stack s s. Proof. intros H. split; [auto|split; [apply ext_refl|auto]]. Qed.
Lemma good_trans stack a b c : good stack a b -> good stack b c -> good stack a c.
Proof. intros (A1 & A2 & A3) (B1 & B2 & B3). split; [auto|]. split; [eapply ext_trans; eauto|auto]. Qed.
Lemma touch_ok stack evd : evd_ok stack evd -> forall l s s' r, Inv s -> (forall v e, In v l -> v_der v = Some e -> e < N) -> touch evd l s = (s', r) -> good stack s s'.
Proof.
  intros H l. induction l as [|v l IH]; intros s s' r HI Hl E; cbn [touch] in E; [injection E as <- <-; now apply good_refl|].
  destruct (v_der v) as [e|] eqn:De; [|apply (IH s s' r); auto; intros; eapply Hl; eauto; now right]. destruct (evd e s) as (s1, r1) eqn:E1. destruct (H e s s1 r1 HI (Hl v e (or_introl eq_refl) De) E1) as (G & _).
  destruct r1; [| |injection E as <- <-; auto]; (eapply good_trans; [exact G|apply (IH s1 s' r); auto; [apply G|intros; eapply Hl; eauto; now right]]).
Qed.
Lemma evField_ok stack evd : evd_ok stack evd -> forall f s s' r, Inv s -> evField evd f s = (s', r) -> good stack s s' /\ forall x, r = Ok (Some x) -> FVf s' f x.
Proof.
  intros H f s s' r HI E. unfold evField in E. destruct (touch evd (flds s f) s) as (s1, r1) eqn:E1. assert (good stack s s1) as G1 by (eapply touch_ok; eauto; intros v e Hv He; eapply (I_der s HI); eauto).
  destruct r1 as [u|e|]; [|injection E as <- <-; split; [auto|discriminate]..]. destruct (flds s1 f) as [|v l] eqn:Ef; [injection E as <- <-; split; [auto|discriminate]|]. destruct (v_der v) as [e|] eqn:De.
  - assert (e < N) as He by (eapply (I_der s1 (proj1 G1) f v e); [rewrite Ef; left; auto|auto]).
    destruct (evd e s1) as (s2, r2) eqn:E2. destruct (H e s1 s2 r2 (proj1 G1) He E2) as (G2 & _). assert (good stack s s2) as G12 by (eapply good_trans; eauto).
    assert (forall s3 r3, evd e s2 = (s3, r3) -> good stack s s3 /\ forall x, r3 = Ok (Some x) -> FVf s3 f x) as K.
    { intros s3 r3 E3. destruct (H e s2 s3 r3 (proj1 G2) He E3) as (G3 & V3). split; [eapply good_trans; eauto|]. intros x Er. destruct (V3 x Er) as (V & C). destruct (I_valid s3 (proj1 G3) e V) as (_ & y & C' & F). apply (FV_der s3 f v l e x); auto; [|congruence].
      rewrite (E_flds _ _ (proj1 (proj2 G3))), (E_flds _ _ (proj1 (proj2 G2))). exact Ef. }
    destruct r2; [apply (K s' r E)|apply (K s' r E)|injection E as <- <-; split; [auto|discriminate]].
  - injection E as <- <-. split; [auto|]. intros x Ex. injection Ex as <-. eapply FV_obs; eauto.
Qed.
Lemma evFields_ok stack evd : evd_ok stack evd -> forall fs s s' r, Inv s -> evFields evd fs s = (s', r) -> good stack s s' /\ forall xs ys, r = Ok xs -> all_vals xs = Some ys -> FVs s' fs ys.
Proof.
  intros H fs. induction fs as [|f fs IH]; intros s s' r HI E; cbn [evFields] in E.
  - injection E as <- <-. split; [now apply good_refl|]. intros xs ys Ex Ey. injection Ex as <-. cbn in Ey. injection Ey as <-. constructor.
  - destruct (evField evd f s) as (s1, r1) eqn:E1. destruct (evField_ok stack evd H f s s1 r1 HI E1) as (G1 & V1). destruct r1 as [x|e|]; [|injection E as <- <-; split; [auto|discriminate]..].
    destruct (evFields evd fs s1) as (s2, r2) eqn:E2. destruct (IH s1 s2 r2 (proj1 G1) E2) as (G2 & V2). assert (good stack s s2) as G12 by (eapply good_trans; eauto).
    destruct r2 as [xs|e|]; injection E as <- <-; (split; [auto|]); try discriminate. intros zs ys Ez Ey. injection Ez as <-. cbn [all_vals] in Ey. destruct x as [x|]; [|discriminate]. destruct (all_vals xs) as [y|] eqn:Ev; [|discriminate]. injection Ey as <-. constructor; [|apply (V2 xs y); auto].
    apply (proj2 (proj2 (FreshV_ext _ _ (proj1 (proj2 G2))))). apply V1. reflexivity.
Qed.
Lemma Inv_valid_change s v c : Inv s -> (forall d, v d = true -> d < N /\ exists x, c d = Some x /\ FreshV (with_valid s v c) d x) -> Inv (with_valid s v c).
Proof. intros HI H. constructor; cbn; [apply (I_refs s HI)|apply (I_reg s HI)|apply (I_bound s HI)|apply (I_der s HI)|apply (I_own s HI)|exact H]. Qed.
Lemma fail_ok m d e s s' r stack : m <> MIgnore -> Inv s -> valid s d = false -> fail m d e s = (s', r) -> good stack s s' /\ (forall x, r <> Ok (Some x)) /\ r <> OutOfFuel /\ (m = MRaise -> exists e, r = Raise e).
Proof.
  intros Hm HI Hv E. unfold fail in E. destruct (caught e); [|injection E as <- <-; split; [now apply good_refl|repeat split; try discriminate; eauto]]. destruct m; [injection E as <- <-; split; [now apply good_refl|repeat split; try discriminate; eauto]| |congruence].
  injection E as <- <-. split; [|split; [discriminate|split; [discriminate|discriminate]]]. set (s' := with_valid _ _ _).
  assert (ext s s') as X. { constructor; cbn; auto. intros d0 V. destruct (Nat.eq_dec d0 d) as [->|Nd]; [congruence|]. now rewrite !upd_ne by auto. }
  split; [|split; [exact X|]].
  - apply Inv_valid_change; auto. intros d0 V. destruct (Nat.eq_dec d0 d) as [->|Nd]; [rewrite upd_eq in V; discriminate|]. rewrite upd_ne in V by auto. destruct (I_valid s HI d0 V) as (L & x & C & F). split; [auto|]. exists x. rewrite upd_ne by auto. split; [auto|]. apply (proj1 (FreshV_ext _ _ X)). exact F.
  - intros t _ Ht. cbn. destruct (Nat.eq_dec t d) as [->|Nd]; [apply upd_eq|now rewrite upd_ne by auto].
Qed.
Lemma eval_ok m : m <> MIgnore -> forall n stack, evd_ok stack (eval m n stack).
Proof.
  intros Hm n. induction n as [|n IH]; intros stack d s s' r HI Hd E; cbn [DerivedModel.eval] in E.
  - injection E as <- <-. split; [now apply good_refl|discriminate].
  - destruct (valid s d) eqn:Vd. { injection E as <- <-. split; [now apply good_refl|]. intros x Ex. split; [auto|congruence]. }
    assert (forall e t t' r', good stack s t -> valid t d = false -> fail m d e t = (t', r') -> good stack s t' /\ forall x, r' = Ok (Some x) -> valid t' d = true /\ cache t' d = Some x) as KF.
    { intros e t t' r' G V E'. destruct (fail_ok m d e t t' r' stack Hm (proj1 G) V E') as (G' & Nx & _). split; [eapply good_trans; eauto|]. intros x Ex. elim (Nx x Ex). }
    destruct (mem d stack) eqn:Md. { apply (KF CycleError s s' r (good_refl _ _ HI) Vd E). }
    destruct (populate d s) as (s1, r1) eqn:E1. destruct (populate_ok s d s1 r1 HI Hd Vd E1) as (I1 & X1 & V1 & R1 & _). assert (good stack s s1) as G1 by (split; [auto|split; [auto|intros t _ Ht; now rewrite V1]]). assert (valid s1 d = false) as Vd1 by now rewrite V1.
    destruct r1 as [fs|e|]; [|apply (KF e s1 s' r G1 Vd1 E)|injection E as <- <-; split; [auto|discriminate]].
    destruct (evFields (eval m n (d :: stack)) fs s1) as (s2, r2) eqn:E2. destruct (evFields_ok (d :: stack) _ (IH (d :: stack)) fs s1 s2 r2 I1 E2) as ((I2 & X2 & W2) & F2). assert (valid s2 d = false) as Vd2 by (apply W2; [left; auto|auto]).
    assert (good stack s s2) as G2. { eapply good_trans; [exact G1|]. split; [auto|split; [auto|]]. intros t Ht. apply W2. now right. }
    destruct r2 as [xs|e|]; [|apply (KF e s2 s' r G2 Vd2 E)|injection E as <- <-; split; [auto|discriminate]]. unfold apply_fn in E. destruct (all_vals xs) as [ys|] eqn:Ey; [|apply (KF TypeError s2 s' r G2 Vd2 E)].
    destruct (fn d ys) as [v|e|] eqn:Ev; [|apply (KF e s2 s' r G2 Vd2 E)|elim (fn_fuel d ys Ev)]. injection E as <- <-. set (s3 := with_valid _ _ _).
    assert (ext s2 s3) as X3. { constructor; cbn; auto. intros d0 V. destruct (Nat.eq_dec d0 d) as [->|Nd]; [congruence|]. now rewrite !upd_ne by auto. }
    split.
    + eapply good_trans; [exact G2|]. split; [|split; [exact X3|]].
      * apply Inv_valid_change; auto. intros d0 V. destruct (Nat.eq_dec d0 d) as [->|Nd].
        { split; [auto|]. exists v. rewrite upd_eq. split; [auto|]. apply (FV_intro s3 d fs ys v); auto; [|apply (proj1 (proj2 (FreshV_ext _ _ X3))); eapply F2; eauto]. cbn. rewrite (E_refs _ _ X2 d fs); [apply R1; reflexivity|apply R1; reflexivity]. }
        { rewrite upd_ne in V by auto. destruct (I_valid s2 I2 d0 V) as (L & x & C & F). split; [auto|]. exists x. rewrite upd_ne by auto. split; [auto|]. apply (proj1 (FreshV_ext _ _ X3)). exact F. }
      * intros t Ht V. cbn. rewrite upd_ne; [auto|]. intros ->. apply mem_nIn in Md. contradiction.
    + intros x Ex. injection Ex as <-. cbn. now rewrite !upd_eq.
Qed.
(** in 'raise' mode None is never returned *)
Lemma eval_raise n : forall stack d s s' r, Inv s -> d < N -> eval MRaise n stack d s = (s', r) -> r <> Ok None.
Proof.
  intros stack d s s' r HI Hd E. destruct n as [|n]; cbn [DerivedModel.eval] in E; [injection E as <- <-; discriminate|]. destruct (valid s d) eqn:Vd. { injection E as <- <-. destruct (I_valid s HI d Vd) as (_ & v & C & _). congruence. }
  assert (forall e (t t' : st) r', fail MRaise d e t = (t', r') -> r' <> Ok None) as KF by (intros e t t' r' Q; unfold fail in Q; destruct (caught e); injection Q as <- <-; discriminate).
  destruct (mem d stack); [eapply KF; eauto|]. destruct (populate d s) as (s1, r1). destruct r1 as [fs|e|]; [|eapply KF; eauto|injection E as <- <-; discriminate].
  destruct (evFields _ fs s1) as (s2, r2). destruct r2 as [xs|e|]; [|eapply KF; eauto|injection E as <- <-; discriminate]. destruct (apply_fn fn d xs) as [v|e|]; [injection E as <- <-; discriminate|eapply KF; eauto|injection E as <- <-; discriminate].
Qed.

(** ** the fuel is enough *)
Lemma eval_fuel m : m <> MIgnore -> forall n stack d s s' r, Inv s -> d < N -> NoDup stack -> (forall x, In x stack -> x < N) -> N < n + length stack -> eval m n stack d s = (s', r) -> r <> OutOfFuel.
Proof.
  intros Hm n. induction n as [|n IH]; intros stack d s s' r HI Hd Nd Bd Hn E.
  - pose proof (bound_len stack N Nd Bd). cbn in Hn. lia.
  - cbn [DerivedModel.eval] in E. destruct (valid s d) eqn:Vd; [injection E as <- <-; discriminate|].
    assert (forall e (t t' : st) r', fail m d e t = (t', r') -> r' <> OutOfFuel) as KF by (intros e t t' r' Q; unfold fail in Q; destruct (caught e); [destruct m|]; injection Q as <- <-; discriminate).
    destruct (mem d stack) eqn:Md; [eapply KF; eauto|]. apply mem_nIn in Md. destruct (populate d s) as (s1, r1) eqn:E1. destruct (populate_ok s d s1 r1 HI Hd Vd E1) as (I1 & X1 & V1 & R1 & NF & _). destruct r1 as [fs|e|]; [|eapply KF; eauto|congruence].
    assert (NoDup (d :: stack)) as Nd' by (constructor; auto). assert (forall x, In x (d :: stack) -> x < N) as Bd' by (intros x [<-|Hx]; auto).
    assert (forall e t t' q, Inv t -> e < N -> eval m n (d :: stack) e t = (t', q) -> q <> OutOfFuel) as Q by (intros; eapply IH; eauto; cbn; lia).
    assert (forall l t t' q, Inv t -> (forall v e, In v l -> v_der v = Some e -> e < N) -> touch (eval m n (d :: stack)) l t = (t', q) -> q = Ok tt) as QT.
    { intros l. induction l as [|v l IHl]; intros t t' q It Hl Et; cbn [touch] in Et; [congruence|]. destruct (v_der v) as [e|] eqn:De; [|eapply IHl; eauto; intros; eapply Hl; eauto; now right]. destruct (eval m n (d :: stack) e t) as (t1, q1) eqn:Ee.
      assert (e < N) as He by (eapply Hl; eauto; left; auto). pose proof (Q e t t1 q1 It He Ee) as Hq. destruct (eval_ok m Hm n (d :: stack) e t t1 q1 It He Ee) as ((It1 & _) & _). destruct q1; [| |congruence]; (eapply IHl; [exact It1| |exact Et]; intros; eapply Hl; eauto; now right). }
    assert (forall f t t' q, Inv t -> evField (eval m n (d :: stack)) f t = (t', q) -> q <> OutOfFuel) as QF.
    { intros f t t' q It Ef. unfold evField in Ef. destruct (touch (eval m n (d :: stack)) (flds t f) t) as (t1, q1) eqn:Et. assert (forall v e, In v (flds t f) -> v_der v = Some e -> e < N) as Hl by (intros v e Hv He; eapply (I_der t It); eauto).
      rewrite (QT _ _ _ _ It Hl Et) in Ef. pose proof (touch_ok (d :: stack) _ (eval_ok m Hm n (d :: stack)) _ _ _ _ It Hl Et) as (It1 & _). destruct (flds t1 f) as [|v l] eqn:El; [injection Ef as <- <-; discriminate|]. destruct (v_der v) as [e|] eqn:De; [|injection Ef as <- <-; discriminate].
      assert (e < N) as He by (eapply (I_der t1 It1 f v e); [rewrite El; left; auto|auto]). destruct (eval m n (d :: stack) e t1) as (t2, q2) eqn:E2. pose proof (Q e t1 t2 q2 It1 He E2) as Hq2. destruct (eval_ok m Hm n (d :: stack) e t1 t2 q2 It1 He E2) as ((It2 & _) & _). destruct q2; [eapply Q; eauto|eapply Q; eauto|congruence]. }
    destruct (evFields (eval m n (d :: stack)) fs s1) as (s2, r2) eqn:E2. assert (r2 <> OutOfFuel) as N2.
    { clear E1 R1 E NF X1 V1. revert s1 s2 r2 I1 E2. induction fs as [|f fs IHf]; intros t t2 q It Ef; cbn [evFields] in Ef; [injection Ef as <- <-; discriminate|]. destruct (evField (eval m n (d :: stack)) f t) as (t1, q1) eqn:E1. pose proof (QF f t t1 q1 It E1) as Hq. destruct (evField_ok (d :: stack) _ (eval_ok m Hm n (d :: stack)) f t t1 q1 It E1) as ((It1 & X1' & _) & _).
      destruct q1 as [x|e|]; [|injection Ef as <- <-; discriminate|congruence]. destruct (evFields (eval m n (d :: stack)) fs t1) as (t3, q3) eqn:E3. assert (q3 <> OutOfFuel) by (eapply IHf; eauto).
      destruct q3; injection Ef as <- <-; congruence. }
    destruct r2 as [xs|e|]; [|eapply KF; eauto|congruence]. destruct (apply_fn fn d xs) as [v|e|] eqn:Ea; [injection E as <- <-; discriminate|eapply KF; eauto|]. unfold apply_fn in Ea. destruct (all_vals xs); [elim (fn_fuel d _ Ea)|discriminate].
Qed.

(** ** what can be recomputed is returned *)
Lemma touch_unit m n stack : m <> MIgnore -> (forall e t t' q, Inv t -> e < N -> eval m n stack e t = (t', q) -> q <> OutOfFuel) -> forall l t t' q, Inv t -> (forall v e, In v l -> v_der v = Some e -> e < N) -> touch (eval m n stack) l t = (t', q) -> q = Ok tt.
Proof.
  intros Hm Q l. induction l as [|v l IHl]; intros t t' q It Hl Et; cbn [touch] in Et; [congruence|]. destruct (v_der v) as [e|] eqn:De; [|eapply IHl; eauto; intros; eapply Hl; eauto; now right]. destruct (eval m n stack e t) as (t1, q1) eqn:Ee.
  assert (e < N) as He by (eapply Hl; eauto; left; auto). pose proof (Q e t t1 q1 It He Ee) as Hq. destruct (eval_ok m Hm n stack e t t1 q1 It He Ee) as ((It1 & _) & _). destruct q1; [| |congruence]; (eapply IHl; [exact It1| |exact Et]; intros; eapply Hl; eauto; now right).
Qed.
Lemma all_vals_Some (xs : list A) : all_vals (map Some xs) = Some xs.
Proof. induction xs as [|x xs IH]; [reflexivity|]. cbn [map all_vals]. now rewrite IH. Qed.
Lemma eval_complete h : forall d v n stack s, Inv s -> d < N -> recompute (flds s) (pnode s) h d = Some v -> (forall t, In t stack -> recompute (flds s) (pnode s) h t = None) ->
  NoDup stack -> (forall x, In x stack -> x < N) -> N < n + length stack -> exists s', eval MRaise n stack d s = (s', Ok (Some v)).
Proof.
  induction h as [|h IH]; intros d v n stack s HI Hd Hr Hs Nd Bd Hn; [discriminate|].
  assert (forall t, In t stack -> recompute (flds s) (pnode s) h t = None) as Hs'. { intros t Ht. destruct (recompute (flds s) (pnode s) h t) eqn:Et; [|auto]. apply recompute_mono1 in Et. rewrite (Hs t Ht) in Et. discriminate. }
  destruct (recompute (flds s) (pnode s) h d) as [v'|] eqn:Er.
  { assert (v' = v) as -> by (eapply recompute_det; eauto). apply (IH d v n stack s); auto. }
  assert (~ In d stack) as Nin by (intros Q; rewrite (Hs d Q) in Hr; discriminate). assert (NoDup (d :: stack)) as Nd' by (constructor; auto). assert (forall x, In x (d :: stack) -> x < N) as Bd' by (intros x [<-|Hx]; auto).
  pose proof (bound_len _ _ Nd' Bd') as Hl. cbn [length] in Hl. destruct n as [|n]; [lia|]. cbn [DerivedModel.eval]. destruct (valid s d) eqn:Vd.
  { destruct (I_valid s HI d Vd) as (_ & x & C & F). destruct (FreshV_recompute s HI d x F) as (h' & Q). rewrite C. rewrite (recompute_det _ _ _ _ _ _ _ Q Hr). eauto. }
  assert (mem d stack = false) as -> by (apply mem_nIn; auto). rewrite recompute_S in Hr. destruct (all_some (map (target (pnode s) d) (deps d))) as [fs|] eqn:Ef; [|discriminate]. destruct (all_vals (map (curr (flds s) (pnode s) h) fs)) as [xs|] eqn:Ex; [|discriminate].
  destruct (populate d s) as (s1, r1) eqn:E1. destruct (populate_ok s d s1 r1 HI Hd Vd E1) as (I1 & X1 & V1 & R1 & NF & C1). rewrite (C1 fs Ef) in *. clear C1 NF.
  assert (forall e t t' q, Inv t -> e < N -> eval MRaise n (d :: stack) e t = (t', q) -> q <> OutOfFuel) as Q by (intros; eapply (eval_fuel MRaise); eauto; [discriminate|cbn; lia]).
  assert (MRaise <> MIgnore) as NM by discriminate.
  assert (forall fs xs t, Inv t -> flds t = flds s -> pnode t = pnode s -> all_vals (map (curr (flds s) (pnode s) h) fs) = Some xs -> exists t', evFields (eval MRaise n (d :: stack)) fs t = (t', Ok (map Some xs))) as K.
  { clear fs xs Ef Ex Hr E1 R1. intros fs. induction fs as [|f fs IHf]; intros xs t It Ft Pt Ev; cbn [map all_vals] in Ev; [injection Ev as <-; exists t; reflexivity|]. destruct (curr (flds s) (pnode s) h f) as [x|] eqn:Ec; [|discriminate]. destruct (all_vals (map _ fs)) as [ys|] eqn:Ey; [|discriminate]. injection Ev as <-.
    assert (exists t', evField (eval MRaise n (d :: stack)) f t = (t', Ok (Some x))) as (t1 & E1).
    { unfold evField. destruct (touch (eval MRaise n (d :: stack)) (flds t f) t) as (t1, q1) eqn:Et. assert (forall v e, In v (flds t f) -> v_der v = Some e -> e < N) as Hlt by (intros w e Hv He; eapply (I_der t It); eauto).
      pose proof (touch_ok (d :: stack) _ (eval_ok MRaise NM n (d :: stack)) _ _ _ _ It Hlt Et) as (It1 & Xt1 & _).
      rewrite (touch_unit MRaise n (d :: stack) NM Q _ _ _ _ It Hlt Et).
      unfold curr in Ec. rewrite (E_flds _ _ Xt1), Ft. destruct (flds s f) as [|w l] eqn:Ew; [discriminate|]. destruct (v_der w) as [e|] eqn:De; [|injection Ec as <-; eauto].
      assert (e < N) as He by (eapply (I_der s HI f w e); [rewrite Ew; left; auto|auto]).
      destruct (eval MRaise n (d :: stack) e t1) as (t2, q2) eqn:E2. pose proof (Q e t1 t2 q2 It1 He E2) as Hq2. destruct (eval_ok MRaise NM n (d :: stack) e t1 t2 q2 It1 He E2) as ((It2 & Xt2 & _) & _).
      assert (exists t3, eval MRaise n (d :: stack) e t2 = (t3, Ok (Some x))) as (t3 & E3).
      { apply IH; auto; [| |cbn [length]; lia]; rewrite (E_flds _ _ Xt2), (E_flds _ _ Xt1), Ft, (E_pn _ _ Xt2), (E_pn _ _ Xt1), Pt; [exact Ec|]. intros y [<-|Hy]; auto. }
      destruct q2; [eauto|eauto|congruence]. }
    destruct (evField_ok (d :: stack) _ (eval_ok MRaise NM n (d :: stack)) f t t1 _ It E1) as ((It1 & Xt1 & _) & _).
    destruct (IHf ys t1 It1) as (t2 & E2); [rewrite (E_flds _ _ Xt1); auto|rewrite (E_pn _ _ Xt1); auto|auto|]. exists t2. cbn [evFields map]. now rewrite E1, E2. }
  destruct (K fs xs s1 I1 (E_flds _ _ X1) (E_pn _ _ X1) Ex) as (s2 & E2). rewrite E2. unfold apply_fn. rewrite all_vals_Some. destruct (fn d xs) as [w|e|]; [|discriminate|discriminate]. injection Hr as ->. eauto.
Qed.

(** ** invalidation reaches exactly what depends on the value *)
Definition edge (s : st) (a b : nat) : Prop := exists f, dfield s a = Some f /\ In b (nots s f).
Inductive RA (s : st) (S : list nat) : nat -> nat -> Prop :=
| RA_refl d : ~ In d S -> RA s S d d
| RA_step d e x : ~ In d S -> edge s d e -> RA s S e x -> RA s S d x.
Lemma RA_head s S d x : RA s S d x -> ~ In d S. Proof. destruct 1; auto. Qed.
Lemma RA_weak s S S' d x : (forall y, In y S' -> In y S) -> RA s S d x -> RA s S' d x.
Proof. intros H. induction 1; [constructor; auto|eapply RA_step; eauto]. Qed.
Lemma RA_last s S d a x : RA s S a x -> RA s (d :: S) a x \/ (exists e, edge s d e /\ RA s (d :: S) e x) \/ x = d.
Proof.
  induction 1 as [a Ha|a e x Ha He Hr IH].
  - destruct (Nat.eq_dec a d) as [->|Ne]; [auto|]. left. constructor. intros [Q|Q]; [congruence|auto].
  - destruct IH as [IH|IH]; [|auto]. destruct (Nat.eq_dec a d) as [->|Ne]; [right; left; eauto|]. left. eapply RA_step; eauto. intros [Q|Q]; [congruence|auto].
Qed.
Lemma RA_first s S d x : RA s S d x -> x = d \/ exists e, edge s d e /\ RA s (d :: S) e x.
Proof. intros H. destruct (RA_last s S d d x H) as [Q|[Q|Q]]; auto. apply RA_head in Q. elim Q. left. auto. Qed.
Lemma RA_snoc s a x y : RA s [] a x -> edge s x y -> RA s [] a y.
Proof. induction 1 as [a Ha|a e x Ha He Hr IH]; intros E; eapply RA_step; eauto. constructor. auto. Qed.
Definition shrink (s s' : st) : Prop := exists v, s' = with_valid s v (cache s) /\ forall x, v x = true -> valid s x = true.
Lemma shrink_refl s : shrink s s. Proof. exists (valid s). destruct s; split; auto. Qed.
Lemma shrink_trans a b c : shrink a b -> shrink b c -> shrink a c.
Proof. intros (v & -> & H) (w & -> & K). exists w. split; [reflexivity|]. intros x Q. apply H, (K x Q). Qed.
Lemma shrink_RA s s' S a x : shrink s s' -> RA s S a x -> RA s' S a x.
Proof. intros (v & -> & _) H. induction H; [constructor; auto|eapply RA_step; eauto]. Qed.
Lemma shrink_RA' s s' S a x : shrink s s' -> RA s' S a x -> RA s S a x.
Proof. intros (v & -> & _) H. induction H; [constructor; auto|eapply RA_step; eauto]. Qed.
Lemma shrink_valid s s' x : shrink s s' -> valid s' x = true -> valid s x = true. Proof. intros (v & -> & H). apply H. Qed.
Lemma shrink_false s s' x : shrink s s' -> valid s x = false -> valid s' x = false.
Proof. intros H E. destruct (valid s' x) eqn:Q; [|auto]. rewrite (shrink_valid _ _ _ H Q) in E. discriminate. Qed.
Lemma fold_shrink (g : nat -> st -> st) l : (forall e t, shrink t (g e t)) -> forall s, shrink s (fold_left (fun t e => g e t) l s).
Proof. intros H. induction l as [|e l IH]; intros s; cbn [fold_left]; [apply shrink_refl|]. eapply shrink_trans; [apply H|apply IH]. Qed.
Lemma invalidate_shrink n : forall stack d s, shrink s (invalidate n stack d s).
Proof.
  induction n as [|n IH]; intros stack d s; cbn [DerivedModel.invalidate]; [apply shrink_refl|]. destruct (mem d stack); [apply shrink_refl|]. set (s1 := with_valid s _ _).
  assert (shrink s s1) as H1. { exists (upd (valid s) d false). split; [reflexivity|]. intros x. destruct (Nat.eq_dec x d) as [->|Ne]; [rewrite upd_eq; discriminate|now rewrite upd_ne by auto]. }
  destruct (dfield s1 d) as [f|]; [|auto]. eapply shrink_trans; [exact H1|]. apply (fold_shrink (fun e t => invalidate n (d :: stack) e t)). auto.
Qed.
Lemma fold_cover (g : nat -> st -> st) (P : st -> nat -> Prop) x l : (forall e t, shrink t (g e t)) -> (forall t t' e, shrink t t' -> P t e -> P t' e) -> (forall e t, In e l -> P t e -> valid (g e t) x = false) ->
  forall s e, In e l -> P s e -> valid (fold_left (fun t e => g e t) l s) x = false.
Proof.
  intros Hs Hp Hg. induction l as [|a l IH]; intros s e Hin He; [destruct Hin|]. cbn [fold_left]. destruct Hin as [->|Hin].
  - eapply shrink_false; [apply (fold_shrink g l Hs)|]. apply Hg; [left; auto|auto].
  - apply (IH (fun e t H => Hg e t (or_intror H)) (g a s) e Hin). eapply Hp; [apply Hs|exact He].
Qed.
Lemma fold_reached (g : nat -> st -> st) (P : st -> nat -> Prop) x l : (forall e t, shrink t (g e t)) -> (forall t t' e, shrink t t' -> P t' e -> P t e) -> (forall e t, In e l -> valid t x = true -> valid (g e t) x = false -> P t e) ->
  forall s, valid s x = true -> valid (fold_left (fun t e => g e t) l s) x = false -> exists e, In e l /\ P s e.
Proof.
  intros Hs Hp Hg. induction l as [|a l IH]; intros s V V'; cbn [fold_left] in V'; [congruence|]. destruct (valid (g a s) x) eqn:Va.
  - destruct (IH (fun e t H => Hg e t (or_intror H)) (g a s) Va V') as (e & Hin & He). exists e. split; [right; auto|]. eapply Hp; [apply Hs|exact He].
  - exists a. split; [left; auto|]. apply Hg; auto. left; auto.
Qed.
Lemma invalidate_cover n : forall stack d s x, (forall f e, In e (nots s f) -> e < N) -> d < N -> NoDup stack -> (forall y, In y stack -> y < N) -> N < n + length stack -> RA s stack d x -> valid (invalidate n stack d s) x = false.
Proof.
  induction n as [|n IH]; intros stack d s x Bn Hd Nd Bd Hn H.
  - pose proof (bound_len stack N Nd Bd). cbn in Hn. lia.
  - cbn [DerivedModel.invalidate]. pose proof (RA_head _ _ _ _ H) as Hd'. assert (mem d stack = false) as -> by (apply mem_nIn; auto). set (s1 := with_valid s _ _).
    assert (shrink s s1) as H1. { exists (upd (valid s) d false). split; [reflexivity|]. intros y. destruct (Nat.eq_dec y d) as [->|Ne]; [rewrite upd_eq; discriminate|now rewrite upd_ne by auto]. }
    assert (NoDup (d :: stack)) as Nd' by (constructor; auto). assert (forall y, In y (d :: stack) -> y < N) as Bd' by (intros y [<-|Hy]; auto).
    assert (valid s1 d = false) as V1 by (cbn; apply upd_eq).
    destruct (RA_first s stack d x H) as [->|(e & (f & Df & He) & Hr)].
    + change (dfield s1 d) with (dfield s d). destruct (dfield s d) as [f|]; [|exact V1]. eapply shrink_false; [apply (fold_shrink (fun e t => invalidate n (d :: stack) e t)); intros; apply invalidate_shrink|exact V1].
    + change (dfield s1 d) with (dfield s d). rewrite Df. change (nots s1 f) with (nots s f).
      apply (fold_cover (fun e t => invalidate n (d :: stack) e t) (fun t e => (forall f e, In e (nots t f) -> e < N) /\ RA t (d :: stack) e x) x (nots s f)) with (e := e); auto.
      * intros; apply invalidate_shrink.
      * intros t t' e0 Sh (Q1 & Q2). split; [|eapply shrink_RA; eauto]. destruct Sh as (v & -> & _). exact Q1.
      * intros e0 t Hin (Q1 & Q2). apply IH; auto; [eapply Bn; eauto|cbn; lia].
      * split; [exact Bn|]. eapply shrink_RA; eauto.
Qed.
Lemma invalidate_reached n : forall stack d s x, valid s x = true -> valid (invalidate n stack d s) x = false -> RA s stack d x.
Proof.
  induction n as [|n IH]; intros stack d s x V V'; cbn [DerivedModel.invalidate] in V'; [congruence|]. destruct (mem d stack) eqn:Md; [congruence|]. apply mem_nIn in Md. set (s1 := with_valid s _ _) in *.
  destruct (Nat.eq_dec x d) as [->|Ne]; [constructor; auto|]. assert (valid s1 x = true) as V1 by (cbn; rewrite upd_ne by auto; exact V). change (dfield s1 d) with (dfield s d) in V'. destruct (dfield s d) as [f|] eqn:Df; [|congruence].
  destruct (fold_reached (fun e t => invalidate n (d :: stack) e t) (fun t e => RA t (d :: stack) e x) x (nots s1 f)) with (s := s1) as (e & Hin & He); auto.
  - intros; apply invalidate_shrink.
  - intros t t' e Sh. apply shrink_RA'. exact Sh.
  - assert (RA s (d :: stack) e x) as Hx. { clear -He. induction He; [constructor; auto|eapply RA_step; eauto]. }
    eapply RA_step; [exact Md|exists f; split; [exact Df|exact Hin]|]. eapply RA_weak; [|exact Hx]. intros y Hy. right. exact Hy.
Qed.
Lemma notify_shrink f s : shrink s (notify f s).
Proof. apply (fold_shrink (fun e t => invalidate (S N) [] e t)). intros; apply invalidate_shrink. Qed.
Lemma notify_cover f s e x : (forall f e, In e (nots s f) -> e < N) -> In e (nots s f) -> RA s [] e x -> valid (notify f s) x = false.
Proof.
  intros Bn He Hr. unfold DerivedModel.notify. apply (fold_cover (fun e t => invalidate (S N) [] e t) (fun t e => (forall f e, In e (nots t f) -> e < N) /\ RA t [] e x) x (nots s f)) with (e := e); auto.
  - intros; apply invalidate_shrink.
  - intros t t' e0 Sh (Q1 & Q2). split; [|eapply shrink_RA; eauto]. destruct Sh as (v & -> & _). exact Q1.
  - intros e0 t Hin (Q1 & Q2). apply invalidate_cover; auto; [eapply Bn; eauto|constructor|intros y []|cbn; lia].
Qed.
Lemma notify_closed f s x y : (forall f e, In e (nots s f) -> e < N) -> valid s x = true -> valid (notify f s) x = false -> edge s x y -> valid (notify f s) y = false.
Proof.
  intros Bn V V' E. unfold DerivedModel.notify in V'. destruct (fold_reached (fun e t => invalidate (S N) [] e t) (fun t e => RA t [] e x) x (nots s f)) with (s := s) as (e & Hin & He); auto.
  - intros; apply invalidate_shrink.
  - intros t t' e Sh. apply shrink_RA'. exact Sh.
  - intros e t _ Vt Vt'. eapply invalidate_reached; eauto.
  - eapply notify_cover; eauto. eapply RA_snoc; eauto.
Qed.

(** ** what the operations on a field do to its values *)
Definition inp_id (i : @inp A) : option nat := match i with IVal v => v_der v | _ => None end.
Definition op_id (o : @fop A) : option nat :=
  match o with FSet _ _ (RVal v) => v_der v | FInsert _ i | FAppend i | FCurr (CInp i) => inp_id i | _ => None end.
Definition key_nonneg (k : @key A) : Prop := match k with KInt z => (0 <= z)%Z | _ => True end.
(** the operations the theorems range over: integer positions counted from the front, no reverse(), DerivedValues among the [N] created *)
Definition fop_fine (o : @fop A) : Prop :=
  match o with FSet _ k _ | FDel k | FInsert k _ => key_nonneg k | FPop z => (0 <= z)%Z | FCurr (CKey k) => True | FReverse _ => False | _ => True end /\
  match op_id o with Some d => d < N | None => True end.
Lemma check_any (v : @fval A) : check_conv_type anyty v = Ok v.
Proof. unfold check_conv_type. cbn. assert (forallb (fun _ : A => true) (v_errs v) = true) as -> by (induction (v_errs v); auto). reflexivity. Qed.
Lemma checkConv_der f i sc f' r : checkConvInVal (@anyty A) f i sc = (f', r) ->
  vals f' = vals f /\ (forall d, In d (owned f) -> In d (owned f')) /\ (forall d, In d (owned f') -> In d (owned f) \/ inp_id i = Some d) /\
  (forall w, r = Ok w -> v_der w = None \/ exists d, v_der w = Some d /\ ~ In d (owned f) /\ In d (owned f')).
Proof.
  unfold checkConvInVal. intros E. destruct (convert i) as [v|e|] eqn:Ec; [|injection E as <- <-; repeat split; auto; discriminate..].
  set (chk := match sc with SCTrue => _ | SCSource _ => _ | SCFalse => _ end) in E.
  assert (chk = Ok v \/ exists e, chk = Raise e) as [Ek|(e & Ek)].
  { unfold chk. rewrite check_any. destruct sc; [destruct (find_src _ _); eauto|destruct (Nat.eqb _ _); eauto|auto]. }
  - rewrite Ek in E. destruct (v_der v) as [d|] eqn:Ed; [|injection E as <- <-; repeat split; auto; intros w Ew; injection Ew as <-; auto]. change (existsb (Nat.eqb d) (owned f)) with (mem d (owned f)) in E. destruct (mem d (owned f)) eqn:Md; injection E as <- <-; [repeat split; auto; discriminate|]. apply mem_nIn in Md.
    repeat split; auto; cbn [owned]; [intros x Hx; right; auto| |intros w Ew; injection Ew as <-; right; exists d; split; [auto|split; [auto|left; auto]]].
    intros x [<-|Hx]; [right|left; auto]. destruct i; cbn in Ec; try discriminate; injection Ec as <-; cbn in Ed; try discriminate. exact Ed.
  - rewrite Ek in E. injection E as <- <-. repeat split; auto. discriminate.
Qed.
Definition newval (f x : @field A) (w : @fval A) : Prop := In w (vals f) \/ v_der w = None \/ exists d, v_der w = Some d /\ ~ In d (owned f) /\ In d (owned x).
Definition headkept (f x : @field A) : Prop := vals f = [] \/ exists v l l', vals f = v :: l /\ vals x = v :: l'.
Lemma headkept_refl f x : vals x = vals f -> headkept f x.
Proof. intros E. unfold headkept. rewrite E. destruct (vals f) as [|v l]; [auto|right; exists v, l, l; auto]. Qed.
Lemma in_remove_at {B} n (l : list B) x : In x (remove_at n l) -> In x l.
Proof. revert n. induction l as [|a l IH]; intros [|n] H; auto; [right; exact H|]. destruct H as [<-|H]; [left; auto|right; eauto]. Qed.
Lemma in_set_nth {B} n (y : B) l x : In x (set_nth n y l) -> x = y \/ In x l.
Proof. revert n. induction l as [|a l IH]; intros [|n] H; auto; [destruct H as [<-|H]; [auto|right; right; exact H]|]. destruct H as [<-|H]; [right; left; auto|]. destruct (IH n H) as [->|Q]; [auto|right; right; auto]. Qed.
Lemma in_insert_at {B} n (y : B) l x : In x (insert_at n y l) -> x = y \/ In x l.
Proof. unfold insert_at. intros H. apply in_app_iff in H. destruct H as [H|[<-|H]]; [right|auto|right]; [rewrite <- (firstn_skipn n l)|rewrite <- (firstn_skipn n l)]; apply in_app_iff; auto. Qed.
Lemma remove_at_head {B} n (v : B) l : n <> 0 -> exists l', remove_at n (v :: l) = v :: l'.
Proof. destruct n; [congruence|]. intros _. unfold remove_at. cbn [firstn app]. eauto. Qed.
Lemma set_nth_head {B} n (y v : B) l : n <> 0 -> exists l', set_nth n y (v :: l) = v :: l'.
Proof. destruct n; [congruence|]. intros _. cbn [set_nth]. eauto. Qed.
Lemma insert_at_head {B} n (y v : B) l : n <> 0 -> exists l', insert_at n y (v :: l) = v :: l'.
Proof. destruct n; [congruence|]. intros _. unfold insert_at. cbn [firstn app]. eauto. Qed.
Lemma at_zero_false (f : @field A) k i : key_nonneg k -> at_zero f k = false -> getitem f k = Ok i -> i <> 0.
Proof.
  unfold at_zero. intros Hk Hz Hg. destruct k as [z| | | | | |]; try (rewrite Hg in Hz; apply Nat.eqb_neq in Hz; exact Hz). cbn in Hk, Hg. apply Z.eqb_neq in Hz. destruct (py_index (length (vals f)) z) as [j|] eqn:Ej; [|discriminate]. injection Hg as <-. unfold py_index in Ej. destruct (0 <=? z)%Z eqn:Q; [|apply Z.leb_gt in Q; lia]. destruct (z <? _)%Z; [|discriminate]. injection Ej as <-. lia.
Qed.
Lemma getitem_eq (f f' : @field A) k : vals f' = vals f -> getitem f' k = getitem f k.
Proof. intros E. destruct k; cbn; unfold get_src; now rewrite ?E. Qed.
Lemma headkept_cons f x (g : @fval A -> list (@fval A) -> Prop) : (forall v l, vals f = v :: l -> exists l', vals x = v :: l') -> headkept f x.
Proof. intros H. unfold headkept. destruct (vals f) as [|v l]; [auto|]. destruct (H v l eq_refl) as (l' & E). right. exists v, l, l'. auto. Qed.
Lemma newval_in f x l : (forall w, In w l -> In w (vals f)) -> forall w, In w l -> newval f x w. Proof. intros H w Hw. left. auto. Qed.
Lemma insert_pos_nz len z : (0 <= z)%Z -> z <> 0%Z -> len <> 0 -> py_insert_pos len z <> 0.
Proof. intros. unfold py_insert_pos. destruct (0 <=? z)%Z eqn:Q; [|apply Z.leb_gt in Q; lia]. lia. Qed.
Lemma insert_ok f k i x r : key_nonneg k -> insert anyty f k i = (x, r) ->
  (forall d, In d (owned f) -> In d (owned x)) /\ (forall d, In d (owned x) -> In d (owned f) \/ inp_id i = Some d) /\ (forall w, In w (vals x) -> newval f x w) /\
  (r <> Ok tt \/ at_zero f k = false -> headkept f x).
Proof.
  intros Hk E. unfold insert in E. set (sc := match k with KSource _ => _ | _ => _ end) in E. destruct (checkConvInVal anyty f i sc) as (f1, r1) eqn:Ec. destruct (checkConv_der _ _ _ _ _ Ec) as (Ev & O1 & O2 & Hw).
  destruct r1 as [v|e|]; [|injection E as <- <-; repeat split; auto; [intros w Hw'; left; congruence|intros _; now apply headkept_refl]..].
  assert (forall p, (x, r) = (with_vals (insert_at p v (vals f1)) f1, Ok tt) -> (at_zero f k = false -> vals f <> [] -> p <> 0) -> (forall d, In d (owned f) -> In d (owned x)) /\ (forall d, In d (owned x) -> In d (owned f) \/ inp_id i = Some d) /\ (forall w, In w (vals x) -> newval f x w) /\ (r <> Ok tt \/ at_zero f k = false -> headkept f x)) as K.
  { intros p Q Hp. injection Q as -> ->. cbn [vals owned with_vals]. split; [auto|]. split; [auto|]. split.
    - intros w Hin. apply in_insert_at in Hin. destruct Hin as [->|Hin]; [|left; congruence]. destruct (Hw v eq_refl) as [Q|(d & Q1 & Q2 & Q3)]; [right; left; auto|right; right; eauto].
    - intros [Q|Q]; [congruence|]. apply (headkept_cons _ _ (fun _ _ => True)). intros w l El. cbn [vals with_vals]. rewrite Ev, El. apply insert_at_head. apply Hp; [auto|]. rewrite El. discriminate. }
  assert (forall e0, (x, r) = (f1, Raise e0) -> (forall d, In d (owned f) -> In d (owned x)) /\ (forall d, In d (owned x) -> In d (owned f) \/ inp_id i = Some d) /\ (forall w, In w (vals x) -> newval f x w) /\ (r <> Ok tt \/ at_zero f k = false -> headkept f x)) as KR.
  { intros e0 Q. injection Q as -> ->. split; [auto|]. split; [auto|]. split; [intros w Hin; left; congruence|]. intros _. now apply headkept_refl. }
  destruct k as [z| | | | | |]; try (destruct (getitem f1 _) as [p|e|] eqn:Eg; [|eapply KR; eauto|elim (getitem_fuel _ _ Eg)]; rewrite (getitem_eq f f1) in Eg by exact Ev; apply (K p); [auto|]; intros Q _; eapply at_zero_false; eauto).
  apply (K (py_insert_pos (length (vals f1)) z)); [now rewrite <- E|]. intros Q Hn. cbn in Q, Hk. apply Z.eqb_neq in Q. apply insert_pos_nz; auto. rewrite Ev. destruct (vals f); [congruence|discriminate].
Qed.
Lemma doop_ok f o x r : fop_fine o -> doop int_src f o = (x, r) ->
  (forall d, In d (owned f) -> In d (owned x)) /\ (forall d, In d (owned x) -> In d (owned f) \/ op_id o = Some d) /\ (forall w, In w (vals x) -> newval f x w) /\
  (r <> Ok tt \/ notifies f o = false -> headkept f x).
Proof.
  intros (Hf & _) E.
  assert (forall y, vals y = vals f -> owned y = owned f -> (forall d, In d (owned f) -> In d (owned y)) /\ (forall d, In d (owned y) -> In d (owned f) \/ op_id o = Some d) /\ (forall w, In w (vals y) -> newval f y w) /\ (r <> Ok tt \/ notifies f o = false -> headkept f y)) as Same.
  { intros y E1 E2. rewrite E2. split; [auto|]. split; [auto|]. split; [intros w Hw; left; congruence|]. intros _. now apply headkept_refl. }
  destruct o as [ds k rh|k|k i|i|z|a|ds]; cbn [doop] in E; cbn [op_id].
  - (* set *) unfold setitem in E. set (src := match k with KDerived _ => _ | _ => _ end) in E. clearbody src.
    assert (forall d, inp_id (pair_with src rh) = Some d -> op_id (FSet ds k rh) = Some d) as Hid by (intros d Q; destruct rh; cbn in *; auto; discriminate).
    destruct (contains f k) as [b|e|] eqn:Ec; [|injection E as <- <-; apply Same; auto..]. destruct b.
    + destruct (getitem f k) as [p|e|] eqn:Eg; [|injection E as <- <-; apply Same; auto..]. destruct (nth_error (vals f) p) as [old|] eqn:En; [|injection E as <- <-; apply Same; auto].
      destruct (checkConvInVal anyty f _ _) as (f1, r1) eqn:Ek. destruct (checkConv_der _ _ _ _ _ Ek) as (Ev & O1 & O2 & Hw).
      assert (forall d, In d (owned f1) -> In d (owned f) \/ op_id (FSet ds k rh) = Some d) as O3 by (intros d Q; destruct (O2 d Q); auto).
      destruct r1 as [v|e|]; injection E as <- <-; (split; [exact O1|]; split; [exact O3|]); try (split; [intros w Hin; left; congruence|intros _; now apply headkept_refl]).
      split.
      * intros w Hin. cbn [vals with_vals] in Hin. apply in_set_nth in Hin. destruct Hin as [->|Hin]; [|left; congruence]. destruct (Hw v eq_refl) as [Q|Q]; [right; left; auto|right; right; exact Q].
      * intros [Q|Q]; [congruence|]. apply (headkept_cons _ _ (fun _ _ => True)). intros w l El. cbn [vals with_vals]. rewrite Ev, El. apply set_nth_head. cbn [notifies] in Q. rewrite Ec in Q. eapply at_zero_false; eauto.
    + destruct (match k with KInt _ => true | _ => false end) eqn:Ei; [injection E as <- <-; apply Same; auto|]. destruct (checkConvInVal anyty f _ _) as (f1, r1) eqn:Ek. destruct (checkConv_der _ _ _ _ _ Ek) as (Ev & O1 & O2 & Hw).
      assert (forall d, In d (owned f1) -> In d (owned f) \/ op_id (FSet ds k rh) = Some d) as O3 by (intros d Q; destruct (O2 d Q); auto).
      destruct r1 as [v|e|]; injection E as <- <-; (split; [exact O1|]; split; [exact O3|]); try (split; [intros w Hin; left; congruence|intros _; now apply headkept_refl]).
      split.
      * intros w Hin. cbn [vals with_vals] in Hin. apply in_app_iff in Hin. destruct Hin as [Hin|[<-|[]]]; [left; congruence|]. destruct (Hw v eq_refl) as [Q|Q]; [right; left; auto|right; right; exact Q].
      * intros _. apply (headkept_cons _ _ (fun _ _ => True)). intros w l El. cbn [vals with_vals]. rewrite Ev, El. cbn [app]. eauto.
  - (* del *) unfold delitem in E. cbn [notifies]. destruct (getitem f k) as [p|e|] eqn:Eg; injection E as <- <-; [|apply Same; auto..]. split; [auto|]. split; [auto|]. split; [intros w Hin; left; apply in_remove_at in Hin; exact Hin|]. intros [Q|Q]; [congruence|]. apply (headkept_cons _ _ (fun _ _ => True)). intros w l El. cbn [vals with_vals]. rewrite El. apply remove_at_head. eapply at_zero_false; eauto.
  - (* insert *) cbn [notifies]. eapply insert_ok; eauto.
  - (* append *) cbn [notifies]. unfold append in E. assert (key_nonneg (KInt (Z.of_nat (length (vals f))))) as Hk by (cbn; lia). destruct (insert_ok _ _ _ _ _ Hk E) as (B1 & B2 & B3 & B4). split; [auto|]. split; [auto|]. split; [auto|]. intros [Q|Q]; [auto|]. apply B4. right. cbn. apply Z.eqb_neq. apply Nat.eqb_neq in Q. lia.
  - (* pop *) unfold pop in E. cbn [notifies]. destruct (getitem f (KInt z)) as [p|e|] eqn:Eg; [|injection E as <- <-; apply Same; auto..]. destruct (nth_error (vals f) p) as [v|]; [|injection E as <- <-; apply Same; auto]. injection E as <- <-. split; [auto|]. split; [auto|]. split; [intros w Hin; left; apply in_remove_at in Hin; exact Hin|]. intros [Q|Q]; [congruence|]. apply (headkept_cons _ _ (fun _ _ => True)). intros w l El. cbn [vals with_vals]. rewrite El. apply remove_at_head. eapply (at_zero_false f (KInt z)); eauto.
  - (* currentobj *) unfold setCurr in E. cbn [notifies].
    assert (forall e, getitem f (arg_key a) = Raise e -> (x, r) = match checkConvInVal anyty f (arg_inp a) SCFalse with
      | (f', Ok v) => (with_vals (v :: match find_src (v_src v) (vals f') with Some i => remove_at i (vals f') | None => vals f' end) f', Ok tt) | (f', Raise e) => (f', Raise e) | (f', OutOfFuel) => (f', OutOfFuel) end ->
      (forall d, In d (owned f) -> In d (owned x)) /\ (forall d, In d (owned x) -> In d (owned f) \/ op_id (FCurr a) = Some d) /\ (forall w, In w (vals x) -> newval f x w) /\ (r <> Ok tt \/ true = false -> headkept f x)) as K.
    { intros e _ Q. destruct (checkConvInVal anyty f (arg_inp a) SCFalse) as (f1, r1) eqn:Ek. destruct (checkConv_der _ _ _ _ _ Ek) as (Ev & O1 & O2 & Hw).
      assert (forall d, In d (owned f1) -> In d (owned f) \/ op_id (FCurr a) = Some d) as O3. { intros d Hd. destruct (O2 d Hd) as [Q1|Q1]; [auto|]. right. destruct a as [[| |s [[]|]| | | |]|]; cbn in *; try discriminate; auto. }
      destruct r1 as [v|e1|]; injection Q as -> ->; (split; [exact O1|]; split; [exact O3|]); try (split; [intros w Hin; left; congruence|intros _; now apply headkept_refl]). split; [|intros [Q1|Q1]; congruence].
      intros w Hin. cbn [vals with_vals] in Hin. destruct Hin as [<-|Hin]; [destruct (Hw v eq_refl) as [Q|Q]; [right; left; auto|right; right; exact Q]|]. left. rewrite <- Ev. destruct (find_src _ _); [apply in_remove_at in Hin|]; auto. }
    destruct (getitem f (arg_key a)) as [p|e|] eqn:Eg; [| |elim (getitem_fuel _ _ Eg)].
    + destruct (nth_error (vals f) p) as [v|] eqn:En; injection E as <- <-; [|apply Same; auto]. split; [auto|]. split; [auto|]. split; [|intros [Q|Q]; congruence]. intros w [<-|Hin]; left; [eapply nth_error_In; eauto|apply in_remove_at in Hin; exact Hin].
    + destruct e; try (apply (K _ eq_refl); rewrite <- E; reflexivity); injection E as <- <-; apply Same; auto.
  - destruct Hf.
Qed.

(** ** every operation keeps the invariant *)
Lemma all_some_In l fs f : all_some l = Some fs -> In f fs -> In (Some f) l.
Proof. revert fs. induction l as [|[x|] l IH]; intros fs E H; cbn [all_some] in E; [injection E as <-; destruct H| |discriminate]. destruct (all_some l) as [y|]; [|discriminate]. injection E as <-. destruct H as [->|H]; [left; auto|right; eauto]. Qed.
Lemma store_ok s f x (nt : bool) : Inv s -> (forall d, In d (own s) -> In d (owned x)) -> (forall d, In d (owned x) -> In d (own s) \/ d < N) -> (forall w, In w (vals x) -> newval (fview s f) x w) -> (nt = false -> headkept (fview s f) x) ->
  Inv (if nt then notify f (store s f x) else store s f x).
Proof.
  intros HI O1 O2 Hw Hh. set (s2 := store s f x). set (s3 := if nt then notify f s2 else s2).
  assert (shrink s2 s3) as Sh by (unfold s3; destruct nt; [apply notify_shrink|apply shrink_refl]).
  assert (forall d, In d (own s) -> dfield s2 d = dfield s d) as Df. { intros d Hd. cbn. apply mem_In in Hd. now rewrite Hd. }
  assert (forall g v e, In v (flds s2 g) -> v_der v = Some e -> dfield s2 e = Some g /\ e < N) as Der2.
  { intros g v e Hin De. assert (In v (flds s g) -> dfield s2 e = Some g /\ e < N) as Old. { intros Ho. destruct (I_der s HI g v e Ho De) as (Q1 & Q2). split; [|auto]. rewrite Df; [auto|]. apply (I_own s HI). congruence. }
    destruct (Nat.eq_dec g f) as [->|Ng]; [|apply Old; cbn in Hin; rewrite upd_ne in Hin by auto; exact Hin]. cbn in Hin. rewrite upd_eq in Hin. destruct (Hw v Hin) as [Q|[Q|(d & Q1 & Q2 & Q3)]]; [apply Old; exact Q|congruence|]. cbn in Q2. assert (d = e) as -> by congruence. split.
    - cbn. apply mem_nIn in Q2. rewrite Q2. apply mem_In in Q3. now rewrite Q3.
    - destruct (O2 e Q3) as [Q|Q]; [contradiction|exact Q]. }
  assert (forall d, In d (own s2) <-> dfield s2 d <> None) as Own2.
  { intros d. cbn. destruct (mem d (own s)) eqn:Mo. - apply mem_In in Mo. rewrite <- (I_own s HI d). split; auto.
    - destruct (mem d (owned x)) eqn:Mx. + apply mem_In in Mx. split; [discriminate|auto]. + apply mem_nIn in Mo, Mx. split; [contradiction|]. intros Q. elim Mo. now apply (I_own s HI). }
  assert (flds s3 = flds s2 /\ own s3 = own s2 /\ dfield s3 = dfield s2 /\ pnode s3 = pnode s /\ refs s3 = refs s /\ nots s3 = nots s /\ cache s3 = cache s) as (F1 & F2 & F3 & F4 & F5 & F6 & F7) by (destruct Sh as (v & -> & _); repeat split; reflexivity).
  assert (forall d, valid s3 d = true -> valid s d = true) as Vd by (intros d Q; exact (shrink_valid _ _ _ Sh Q)).
  assert (forall g e, In e (nots s2 g) -> e < N) as Bn by (intros g e; apply (I_bound s HI)).
  assert (forall d g, valid s3 d = true -> In d (nots s g) -> nt = true -> g <> f) as Ngf. { intros d g V Hg Hn ->. unfold s3 in V. rewrite Hn in V. rewrite (notify_cover f s2 d d Bn Hg) in V; [discriminate|]. constructor. auto. }
  assert (forall d g v l, valid s3 d = true -> In d (nots s g) -> flds s g = v :: l -> exists l', flds s3 g = v :: l') as Hd3.
  { intros d g v l V Hg El. rewrite F1. cbn. destruct (Nat.eq_dec g f) as [->|Ng]; [|rewrite upd_ne by auto; eauto]. rewrite upd_eq. destruct nt; [elim (Ngf d f V Hg eq_refl eq_refl)|]. destruct (Hh eq_refl) as [Q|(v' & l1 & l2 & Q1 & Q2)]; cbn in *; [congruence|]. exists l2. congruence. }
  assert (forall d g v l e, valid s3 d = true -> In d (nots s g) -> flds s g = v :: l -> v_der v = Some e -> valid s e = true -> valid s3 e = true) as Ve3.
  { intros d g v l e V Hg E De Ve. assert (In v (flds s g)) as Hin by (rewrite E; left; auto). destruct (I_der s HI g v e Hin De) as (Q1 & Q2). destruct (valid s3 e) eqn:Q; [auto|]. exfalso. unfold s3 in Q, V. destruct nt; [|cbn in Q; congruence]. rewrite (notify_closed f s2 e d Bn Ve Q) in V; [discriminate|]. exists g. split; [|exact Hg]. rewrite Df; [auto|]. apply (I_own s HI). congruence. }
  assert (forall d v, FreshV s d v -> valid s3 d = true -> FreshV s3 d v) as K.
  { apply (FreshV_mut s (fun d v _ => valid s3 d = true -> FreshV s3 d v) (fun fs xs _ => forall d, d < N -> valid s3 d = true -> (forall g, In g fs -> In d (nots s g)) -> FVs s3 fs xs) (fun g y _ => forall d, d < N -> valid s3 d = true -> In d (nots s g) -> FVf s3 g y)).
    - intros d fs xs v E _ IH Ev V. assert (d < N) as Hd by (apply (I_valid s HI d (Vd d V))). apply (FV_intro s3 d fs xs v); auto; [now rewrite F5|]. apply (IH d Hd V). intros g Hg. apply (I_reg s HI d g Hd). eapply all_some_In; eauto.
    - constructor.
    - intros g fs y ys _ IH1 _ IH2 d Hd V Hg. constructor; [apply (IH1 d Hd V); apply Hg; left; auto|apply (IH2 d Hd V); intros g' Q; apply Hg; right; auto].
    - intros g v l E Dn d Hd V Hg. destruct (Hd3 d g v l V Hg E) as (l' & E'). eapply FV_obs; eauto.
    - intros g v l e y E De Ve Ce Fe IH d Hd V Hg. destruct (Hd3 d g v l V Hg E) as (l' & E'). assert (valid s3 e = true) as V3 by (eapply Ve3; eauto). eapply FV_der; eauto. now rewrite F7. }
  constructor.
  - intros d. rewrite F4, F5. apply (I_refs s HI).
  - intros d g. rewrite F5, F6. apply (I_reg s HI).
  - intros g d. rewrite F6. apply (I_bound s HI).
  - intros g v e. rewrite F1, F3. apply Der2.
  - intros d. rewrite F2, F3. apply Own2.
  - intros d V. destruct (I_valid s HI d (Vd d V)) as (L & v & C & F). split; [auto|]. exists v. rewrite F7. split; [auto|]. apply K; auto.
Qed.
Notation read := (@read A fn deps locate N).
Notation call := (@call A fn deps locate N).
Notation step := (@step A fn deps locate N int_src).
Notation dstep := (@dstep A fn deps locate N int_src).
Notation drun := (@drun A fn deps locate N int_src).
Lemma read_ok m d s s' r : m <> MIgnore -> Inv s -> d < N -> read m d s = (s', r) -> Inv s' /\ ext s s' /\ r <> OutOfFuel.
Proof.
  intros Hm HI Hd E. destruct (eval_ok m Hm (S N) [] d s s' r HI Hd E) as ((I' & X & _) & _). split; [auto|]. split; [auto|]. apply (eval_fuel m Hm (S N) [] d s s' r); auto; [constructor|intros y []|cbn; lia].
Qed.
Lemma checked_id f o d : checked f o = Some d -> op_id o = Some d.
Proof.
  destruct o as [ds k rh|k|k i|i|z|a|ds]; cbn; try discriminate.
  - destruct rh as [v| | |]; try discriminate. destruct (contains f k) as [[]| |]; try discriminate.
    + destruct (getitem f k) as [i| |]; try discriminate. destruct (nth_error _ _); [|discriminate]. destruct (Nat.eqb _ _); [auto|discriminate].
    + destruct k; try discriminate; destruct (find_src _ _); try discriminate; auto.
  - destruct i as [v| | | |]; try discriminate. destruct k; try (destruct (find_src _ _); [discriminate|auto]). destruct (Nat.eqb _ _); [auto|discriminate].
  - destruct i as [v| | | |]; try discriminate. destruct (find_src _ _); [discriminate|auto].
Qed.
Lemma step_ok s f o : Inv s -> fop_fine o -> Inv (fst (step s f o)) /\ snd (step s f o) <> OutOfFuel /\ pnode (fst (step s f o)) = pnode s.
Proof.
  intros HI Hf. unfold DerivedModel.step.
  set (pre := match checked (fview s f) o with None => _ | Some _ => _ end).
  assert (Inv (fst pre) /\ snd pre <> OutOfFuel /\ pnode (fst pre) = pnode s) as (I1 & N1 & P1).
  { unfold pre. destruct (checked (fview s f) o) as [d|] eqn:Ec; [|split; [auto|split; [discriminate|auto]]]. apply checked_id in Ec. destruct Hf as (_ & Hd). rewrite Ec in Hd. destruct (read MSkip d s) as (s1, r) eqn:E. destruct (read_ok MSkip d s s1 r) as (B1 & B2 & B3); auto; [discriminate|]. destruct r; cbn; (split; [auto|split; [congruence|apply (E_pn _ _ B2)]]). }
  destruct pre as (s1, r). cbn in I1, N1, P1. destruct r as [u|e|]; [|split; [auto|split; [auto|auto]]..]. destruct (doop int_src (fview s1 f) o) as (x, r) eqn:Ed. destruct (doop_ok _ _ _ _ Hf Ed) as (O1 & O2 & Hw & Hh).
  assert (forall d, In d (owned x) -> In d (own s1) \/ d < N) as O3. { intros d Hd. destruct (O2 d Hd) as [Q|Q]; [auto|]. destruct Hf as (_ & Hd'). rewrite Q in Hd'. auto. }
  assert (forall nt : bool, pnode (if nt then notify f (store s1 f x) else store s1 f x) = pnode s) as Pn. { intros []; [|exact P1]. destruct (notify_shrink f (store s1 f x)) as (v & -> & _). exact P1. }
  assert (r <> OutOfFuel) as Nr.
  { destruct o as [ds k rh|k|k i|i|z|a|ds]; cbn [doop] in Ed.
    - intros ->. unfold setitem in Ed. destruct (contains_cases (fview s1 f) k) as [(p & Q1 & Q2)|[(Q1 & _)|(e & Q1 & _)]]; rewrite ?Q1, ?Q2 in Ed; try discriminate.
      + destruct (nth_error _ _); [|discriminate]. destruct (checkConvInVal _ _ _ _) as (f1, [| |]) eqn:Ek; try discriminate. elim (checkConv_fuel _ _ _ _ _ Ek).
      + destruct (match k with KInt _ => true | _ => false end); [discriminate|]. destruct (checkConvInVal _ _ _ _) as (f1, [| |]) eqn:Ek; try discriminate. elim (checkConv_fuel _ _ _ _ _ Ek).
    - intros ->. unfold delitem in Ed. destruct (getitem (fview s1 f) k) eqn:Q; try discriminate. elim (getitem_fuel _ _ Q).
    - intros ->. unfold insert in Ed. destruct (checkConvInVal _ _ _ _) as (f1, [| |]) eqn:Ek; try discriminate; [|elim (checkConv_fuel _ _ _ _ _ Ek)]. destruct k; try discriminate; destruct (getitem f1 _) eqn:Q; try discriminate; elim (getitem_fuel _ _ Q).
    - intros ->. unfold append, insert in Ed. destruct (checkConvInVal _ _ _ _) as (f1, [| |]) eqn:Ek; try discriminate. elim (checkConv_fuel _ _ _ _ _ Ek).
    - intros ->. unfold pop in Ed. destruct (getitem (fview s1 f) (KInt z)) eqn:Q; try discriminate; [|elim (getitem_fuel _ _ Q)]. destruct (nth_error _ _); discriminate.
    - intros ->. unfold setCurr in Ed. destruct (getitem (fview s1 f) (arg_key a)) as [p|e|] eqn:Q; [destruct (nth_error _ _); discriminate| |elim (getitem_fuel _ _ Q)].
      destruct (checkConvInVal anyty (fview s1 f) (arg_inp a) SCFalse) as (f1, [| |]) eqn:Ek; [destruct e; discriminate|destruct e; discriminate|elim (checkConv_fuel _ _ _ _ _ Ek)].
    - injection Ed as <- <-. discriminate. }
  destruct r as [[]|e|]; cbn [fst snd].
  - split; [|split; [discriminate|apply Pn]]. apply store_ok; auto.
  - split; [|split; [discriminate|exact (Pn false)]]. apply (store_ok s1 f x false); auto. intros _. apply Hh. left. discriminate.
  - congruence.
Qed.
Definition dop_fine (o : @dop A) : Prop := match o with DOp _ o => fop_fine o | DRead d => d < N | DCall _ => True end.
Lemma call_ok m f s s' r : m <> MIgnore -> Inv s -> call m f s = (s', r) -> Inv s' /\ ext s s' /\ r <> OutOfFuel.
Proof.
  intros Hm HI E. unfold DerivedModel.call in E. destruct (flds s f) as [|v l] eqn:Ef; [injection E as <- <-; split; [auto|split; [apply ext_refl|discriminate]]|]. destruct (v_der v) as [e|] eqn:De; [|injection E as <- <-; split; [auto|split; [apply ext_refl|discriminate]]]. eapply read_ok; eauto. eapply (I_der s HI f v e); [rewrite Ef; left; auto|auto].
Qed.
Lemma dstep_ok s o : Inv s -> dop_fine o -> Inv (dstep s o) /\ pnode (dstep s o) = pnode s.
Proof.
  intros HI Ho. destruct o as [f o|d|f]; cbn [DerivedModel.dstep].
  - destruct (step_ok s f o HI Ho) as (A1 & _ & A2). auto.
  - destruct (read MRaise d s) as (s', r) eqn:E. destruct (read_ok MRaise d s s' r) as (B1 & B2 & _); auto; [discriminate|]. split; [auto|apply (E_pn _ _ B2)].
  - destruct (call MRaise f s) as (s', r) eqn:E. destruct (call_ok MRaise f s s' r) as (B1 & B2 & _); auto; [discriminate|]. split; [auto|apply (E_pn _ _ B2)].
Qed.
Lemma drun_ok ops : forall s, Inv s -> Forall dop_fine ops -> Inv (drun s ops) /\ pnode (drun s ops) = pnode s.
Proof.
  induction ops as [|o ops IH]; intros s HI Hf; [auto|]. inversion Hf as [|? ? H1 H2]; subst. change (drun s (o :: ops)) with (drun (dstep s o) ops). destruct (dstep_ok s o HI H1) as (A1 & A2). destruct (IH _ A1 H2) as (B1 & B2). split; [auto|congruence].
Qed.
Lemma init_ok pn : Inv (init deps N pn).
Proof.
  constructor; cbn.
  - intros d. unfold init_refs. induction (deps d) as [|p l IH]; [constructor|]. cbn [map]. constructor; [|exact IH]. destruct p; [reflexivity|eauto].
  - intros d f Hd Hin. unfold init_nots. apply in_flat_map. exists d. split; [apply in_seq; lia|]. unfold init_refs in Hin. apply in_map_iff in Hin. destruct Hin as (p & Ep & Hp). apply in_map_iff. exists p. split; [auto|]. apply filter_In. split; [auto|]. destruct p; [injection Ep as ->; apply Nat.eqb_refl|discriminate].
  - intros f d Hin. unfold init_nots in Hin. apply in_flat_map in Hin. destruct Hin as (d' & Hd & Hin). apply in_map_iff in Hin. destruct Hin as (p & <- & _). apply in_seq in Hd. lia.
  - intros f v e [].
  - intros d. split; [intros []|intros H; now elim H].
  - discriminate.
Qed.
(** ** reading *)
Lemma read_spec s d : Inv s -> d < N -> forall v, snd (read MRaise d s) = Ok (Some v) <-> exists h, recompute (flds s) (pnode s) h d = Some v.
Proof.
  intros HI Hd v. split.
  - intros E. destruct (read MRaise d s) as (s', r) eqn:Er. cbn in E. subst r. assert (MRaise <> MIgnore) as NM by discriminate. destruct (eval_ok MRaise NM (S N) [] d s s' _ HI Hd Er) as ((I' & X & _) & V). destruct (V v eq_refl) as (V1 & C1). destruct (I_valid s' I' d V1) as (_ & y & C & F). destruct (FreshV_recompute s' I' d y F) as (h & Q). exists h. rewrite (E_flds _ _ X), (E_pn _ _ X) in Q. congruence.
  - intros (h & Q). destruct (eval_complete h d v (S N) [] s HI Hd Q) as (s' & E); [intros t []|constructor|intros y []|cbn; lia|]. unfold DerivedModel.read. now rewrite E.
Qed.
Lemma read_frame s d : Inv s -> d < N -> flds (fst (read MRaise d s)) = flds s /\ pnode (fst (read MRaise d s)) = pnode s /\ ((exists v, snd (read MRaise d s) = Ok (Some v)) \/ exists e, snd (read MRaise d s) = Raise e).
Proof.
  intros HI Hd. destruct (read MRaise d s) as (s', r) eqn:E. destruct (read_ok MRaise d s s' r) as (B1 & B2 & B3); auto; [discriminate|]. cbn. split; [apply (E_flds _ _ B2)|]. split; [apply (E_pn _ _ B2)|]. pose proof (eval_raise (S N) [] d s s' r HI Hd E). destruct r as [[v|]|e|]; [left|congruence|right|congruence]; eauto.
Qed.
Lemma call_spec s f : Inv s -> forall v, snd (call MRaise f s) = Ok (Some v) <-> exists h, curr (flds s) (pnode s) h f = Some v.
Proof.
  intros HI v. unfold DerivedModel.call, DerivedSpec.curr. destruct (flds s f) as [|w l] eqn:Ef; [split; [discriminate|intros (h & Q); discriminate]|]. destruct (v_der w) as [e|] eqn:De.
  - apply read_spec; auto. eapply (I_der s HI f w e); [rewrite Ef; left; auto|auto].
  - cbn. split; [intros E; exists 0; congruence|intros (h & Q); congruence].
Qed.
End P.
