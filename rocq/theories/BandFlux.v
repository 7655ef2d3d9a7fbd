(** * BandFlux: fluxes and magnitudes through a tabulated band (C125) *)
From Coq Require Import Reals List Bool String Lra Lia Psatz Permutation Sorted Arith.
From Verif Require Import PyBase SpecModel SpecProps SpecObj PhotModel BandModel BandProof.
Import ListNotations.
Open Scope R_scope.

(** ** The rule of integration *)
Lemma basic_ind (P : list (R * R) -> Prop) : P [] -> (forall a, P [a]) -> (forall a b, P [a; b]) -> (forall a b q r, P (q :: r) -> P (a :: b :: q :: r)) -> forall p, P p.
Proof.
  intros H0 H1 H2 H3. assert (G : forall n p, (List.length p <= n)%nat -> P p).
  { induction n as [|n IH]; intros [|a [|b [|q r]]] L; cbn [List.length] in L; auto; try lia. apply H3, IH. cbn [List.length]. lia. }
  intros p. now apply (G (List.length p)).
Qed.
Lemma basic_cons a b q r : basic (a :: b :: q :: r) = (let h0 := fst b - fst a in let h1 := fst q - fst b in let hs := h0 + h1 in hs / 6 * (snd a * (2 - h1 / h0) + snd b * (hs * hs / (h0 * h1)) + snd q * (2 - h0 / h1))) + basic (q :: r).
Proof. destruct a, b, q. reflexivity. Qed.
Definition scl (k : R) (p : list (R * R)) : list (R * R) := map (fun q => (fst q, k * snd q)) p.
Lemma basic_scale k p : basic (scl k p) = k * basic p.
Proof.
  induction p as [|a|a b|a b q r IH] using basic_ind; try (destruct a); try (destruct b); try (cbn; ring).
  change (scl k ((r0, r1) :: (r2, r3) :: q :: r)) with ((r0, k * r1) :: (r2, k * r3) :: (fst q, k * snd q) :: scl k r). rewrite !basic_cons. change ((fst q, k * snd q) :: scl k r) with (scl k (q :: r)). rewrite IH. cbn [fst snd]. cbv zeta. unfold Rdiv. ring.
Qed.
Lemma simps_scale k p : simps (scl k p) = k * simps p.
Proof.
  unfold simps. unfold scl at 1. rewrite map_length. destruct (Nat.odd (List.length p)); [apply basic_scale|]. destruct p as [|a [|b p]].
  - cbn. ring.
  - cbn. ring.
  - set (l := a :: b :: p). assert (E : rev (scl k l) = scl k (rev l)) by (unfold scl; now rewrite map_rev). destruct (rev l) as [|z [|y r]] eqn:Er.
    + apply (f_equal (@List.length _)) in Er. rewrite rev_length in Er. discriminate.
    + apply (f_equal (@List.length _)) in Er. rewrite rev_length in Er. discriminate.
    + unfold l at 1. cbn [scl map]. change ((fst a, k * snd a) :: (fst b, k * snd b) :: map (fun q : R * R => (fst q, k * snd q)) p) with (scl k l). rewrite E. cbn [scl map]. change (map (fun q : R * R => (fst q, k * snd q)) (a :: b :: p)) with (scl k l).
      assert (T : tl (scl k l) = scl k (tl l)) by reflexivity. assert (L : removelast (scl k l) = scl k (removelast l)). { clear. induction l as [|c l IH]; [reflexivity|]. destruct l as [|d l]; [reflexivity|]. change (removelast (scl k (c :: d :: l))) with ((fst c, k * snd c) :: removelast (scl k (d :: l))). rewrite IH. reflexivity. }
      fold l. rewrite T, L, !basic_scale. unfold trap. cbn [fst snd]. field.
Qed.
(** Specification: the integral of a polynomial of degree two, by its antiderivative. *)
Definition quad (A B C x : R) : R := A * x * x + B * x + C.
Definition antider (A B C x : R) : R := A * x * x * x / 3 + B * x * x / 2 + C * x.
Fixpoint apart (l : list R) : Prop := match l with a :: r => match r with b :: _ => a <> b /\ apart r | [] => True end | [] => True end.
Definition sampled (f : R -> R) (x : list R) : list (R * R) := map (fun a => (a, f a)) x.
Lemma list3_ind (P : list R -> Prop) : P [] -> (forall a, P [a]) -> (forall a b, P [a; b]) -> (forall a b q r, P (q :: r) -> P (a :: b :: q :: r)) -> forall p, P p.
Proof.
  intros H0 H1 H2 H3. assert (G : forall n p, (List.length p <= n)%nat -> P p).
  { induction n as [|n IH]; intros [|a [|b [|q r]]] L; cbn [List.length] in L; auto; try lia. apply H3, IH. cbn [List.length]. lia. }
  intros p. now apply (G (List.length p)).
Qed.
(** increasing x: no steps of zero length, no two steps that cancel *)
Definition increasing (x : list R) : Prop := StronglySorted Rlt x.
Lemma basic_exact A B C x : increasing x -> Nat.odd (List.length x) = true -> basic (sampled (quad A B C) x) = antider A B C (last x 0) - antider A B C (hd 0 x).
Proof.
  induction x as [|a|a b|a b q r IH] using list3_ind; intros I O; try discriminate.
  - cbn. ring.
  - inversion I as [|? ? I1 F1]; subst. inversion I1 as [|? ? I2 F2]; subst. inversion F1 as [|? ? L1 _]; subst. inversion F2 as [|? ? L2 _]; subst.
    change (sampled (quad A B C) (a :: b :: q :: r)) with ((a, quad A B C a) :: (b, quad A B C b) :: (q, quad A B C q) :: sampled (quad A B C) r). rewrite basic_cons. change ((q, quad A B C q) :: sampled (quad A B C) r) with (sampled (quad A B C) (q :: r)). rewrite IH by (exact I2 || exact O). cbn [fst snd hd]. cbv zeta. replace (last (a :: b :: q :: r) 0) with (last (q :: r) 0) by reflexivity. unfold antider, quad. field. split; lra.
Qed.
Lemma sampled_tl f x : tl (sampled f x) = sampled f (tl x).
Proof. now destruct x. Qed.
Lemma sampled_rl f x : removelast (sampled f x) = sampled f (removelast x).
Proof. induction x as [|a x IH]; [reflexivity|]. destruct x as [|b x]; [reflexivity|]. change (removelast (sampled f (a :: b :: x))) with ((a, f a) :: removelast (sampled f (b :: x))). now rewrite IH. Qed.
Lemma increasing_app x y : increasing (x ++ y) -> increasing x /\ increasing y /\ forall a b, In a x -> In b y -> a < b.
Proof.
  induction x as [|a x IH]; cbn [app]; intros H.
  - split; [constructor|]. split; [exact H|]. intros ? ? [].
  - inversion H as [|? ? H1 H2]; subst. destruct (IH H1) as (X & Y & Z). rewrite Forall_app in H2. destruct H2 as (F1 & F2). split; [now constructor|]. split; [exact Y|]. intros u v [<- |Hu] Hv; [|now apply Z]. rewrite Forall_forall in F2. now apply F2.
Qed.
(** The integral of a table is exact for quadratics on an odd number of points, and for straight lines on any number. *)
Theorem C125_simps_exact : forall A B C x, x <> [] -> increasing x -> (Nat.odd (List.length x) = true \/ A = 0) -> simps (sampled (quad A B C) x) = antider A B C (last x 0) - antider A B C (hd 0 x).
Proof.
  intros A B C x N I H. unfold simps. unfold sampled at 1. rewrite map_length. destruct (Nat.odd (List.length x)) eqn:O; [now apply basic_exact|]. destruct H as [H|H]; [discriminate|]. subst A.
  destruct x as [|a [|b x]]; [contradiction|discriminate|]. destruct (@exists_last _ (b :: x) ltac:(discriminate)) as (r & z & Er).
  assert (exists r' y, a :: r = r' ++ [y]) as (r' & y & Ey). { destruct (@exists_last _ (a :: r) ltac:(discriminate)) as (r' & y & E). eauto. }
  assert (El : a :: b :: x = r' ++ [y; z]). { rewrite Er. change (a :: r ++ [z]) with ((a :: r) ++ [z]). rewrite Ey, <- app_assoc. reflexivity. }
  assert (Ll : last (a :: b :: x) 0 = z). { rewrite El. change [y; z] with ([y] ++ [z]). rewrite app_assoc. apply last_last. }
  assert (Rl : removelast (a :: b :: x) = a :: r). { rewrite Er. change (a :: r ++ [z]) with ((a :: r) ++ [z]). apply removelast_last. }
  assert (Ly : last (a :: r) 0 = y) by (rewrite Ey; apply last_last).
  assert (Oodd : Nat.odd (List.length (b :: x)) = true). { cbn [List.length] in O |- *. rewrite Nat.odd_succ in O. rewrite <- Nat.negb_odd in O. apply negb_false_iff in O. exact O. }
  assert (Oodd' : Nat.odd (List.length (a :: r)) = true). { assert (List.length (a :: r) = List.length (b :: x)) by (rewrite Er, app_length; cbn [List.length]; lia). congruence. }
  destruct (increasing_app r' [y; z]) as (_ & Iyz & _); [now rewrite <- El|]. apply StronglySorted_inv in Iyz. destruct Iyz as (_ & F). apply Forall_inv in F.
  assert (Ir : increasing (a :: r)). { assert (E : a :: b :: x = (a :: r) ++ [z]) by (rewrite Er; reflexivity). rewrite E in I. now apply increasing_app in I. }
  assert (Ib : increasing (b :: x)) by now inversion I.
  assert (Rr : rev (sampled (quad 0 B C) (a :: b :: x)) = (z, quad 0 B C z) :: (y, quad 0 B C y) :: rev (sampled (quad 0 B C) r')). { rewrite El. unfold sampled. rewrite map_app, rev_app_distr. reflexivity. }
  cbn [sampled map]. change ((a, quad 0 B C a) :: (b, quad 0 B C b) :: map (fun a0 : R => (a0, quad 0 B C a0)) x) with (sampled (quad 0 B C) (a :: b :: x)). rewrite Rr. rewrite sampled_rl, sampled_tl, Rl. cbn [tl]. rewrite !basic_exact by assumption. rewrite Ly, Ll. replace (last (b :: x) 0) with z by (rewrite <- Ll; reflexivity). cbn [hd]. unfold trap, antider, quad. cbn [fst snd]. field.
Qed.

(** ** Scaling *)
Lemma interp_from_scale k x l : forall x0 y0, interp_from x0 (k * y0) x (scl k l) = k * interp_from x0 y0 x l.
Proof.
  induction l as [|(x1, y1) l IH]; intros x0 y0; [reflexivity|]. change (scl k ((x1, y1) :: l)) with ((x1, k * y1) :: scl k l). cbn [interp_from]. destruct (Rle_dec x x1); [unfold Rdiv; ring|apply IH].
Qed.
Lemma interp_scale k x l : interp x (scl k l) = k * interp x l.
Proof.
  destruct l as [|(x0, y0) l]; [cbn; ring|]. change (scl k ((x0, y0) :: l)) with ((x0, k * y0) :: scl k l). cbn [interp]. destruct (Rle_dec x x0); [reflexivity|]. apply interp_from_scale.
Qed.
Lemma combine_scale k (x f : list R) : combine x (map (Rmult k) f) = scl k (combine x f).
Proof. revert f. induction x as [|a x IH]; intros [|b f]; cbn; try reflexivity. now rewrite IH. Qed.
(** the spectrum with the flux densities multiplied by k *)
Definition times (k : R) (s : spectrum) : spectrum := Spec (sx s) (map (Rmult k) (sflux s)) (serr s) (sunit s) (scont s) (scontop s) (sz s).
Section Flux.
Variables c h ergperev : R.
Hypothesis Hc : 0 < c.
Hypothesis Hh : 0 < h.
Hypothesis He : 0 < ergperev.
Notation setUnit := (setUnit c h ergperev).
Notation computeFlux := (computeFlux c h ergperev).
Notation computeMag := (BandModel.computeMag c h ergperev).
Notation computeZpt := (BandModel.computeZpt c h ergperev).
Notation expressed := (expressed c h ergperev).
(** a unit whose own name is understood (not THz and eV: C49) *)
Definition named (u : unit_) : Prop := strToUnit (unit_name u) = Ok u.
(** an ordinary spectrum: no continuum operation pending, no continuum model *)
Definition plain (s : spectrum) : Prop := good s /\ scontop s = None /\ match scont s with Some (CFun _) => False | _ => True end.
Lemma times_set k s n : setUnit (times k s) n = (times k (fst (setUnit s n)), snd (setUnit s n)).
Proof.
  unfold SpecModel.setUnit. change (sunit (times k s)) with (sunit s). destruct (strToUnit n) as [v|e|]; [|reflexivity|reflexivity]. destruct (unit_eqb v (sunit s)); [reflexivity|]. unfold applyUnits. change (scontop (times k s)) with (scontop s). destruct (scontop s); [reflexivity|]. cbn [fst snd]. apply (f_equal2 pair); [|reflexivity].
  unfold times. cbn [sx sflux serr sunit scont scontop sz]. rewrite combine_scale. unfold fluxes, scl. rewrite combine_scale. unfold scl. rewrite !map_map.
  replace (map (fun x : R * R => fst (xftrans c h ergperev (sunit s) v (fst x, k * snd x))) (combine (sx s) (sflux s))) with (map (fun p : R * R => fst (xftrans c h ergperev (sunit s) v p)) (combine (sx s) (sflux s))).
  2: { apply map_ext. intros (a, b). cbn [fst snd]. apply xf_x. }
  f_equal. apply map_ext. intros (a, b). cbn [fst snd]. rewrite (Rmult_comm k b). rewrite xf_k. ring.
Qed.
Lemma scl_weight t k p : map (fun q : R * R => (fst q, match t with Wav => snd q * fst q | _ => snd q / fst q end)) (scl k p) = scl k (map (fun q => (fst q, match t with Wav => snd q * fst q | _ => snd q / fst q end)) p).
Proof. unfold scl. rewrite !map_map. apply map_ext. intros (a, b). cbn [fst snd]. apply (f_equal2 pair); [reflexivity|]. destruct t; unfold Rdiv; ring. Qed.
Lemma finish_scale b ov k p : finish b ov (scl k p) = match finish b ov p with Ok v => Ok (k * v) | Raise e => Raise e | OutOfFuel => OutOfFuel end.
Proof.
  unfold finish. replace (map fst (scl k p)) with (map fst p) by (unfold scl; rewrite map_map; reflexivity). destruct (ov && negb (isOverlapped b (map fst p))); [reflexivity|]. rewrite scl_weight. unfold scl at 1. rewrite sortx_map. fold (scl k (sortx (map (fun q : R * R => (fst q, match ptype (bunit b) with Wav => snd q * fst q | _ => snd q / fst q end)) p))). now rewrite simps_scale.
Qed.
Lemma product_scale b s al k : product b (times k s) al = scl k (product b s al).
Proof.
  unfold product. change (sx (times k s)) with (sx s). cbn [times sflux]. rewrite combine_scale. destruct (match al with Some a => a | None => lt_ (resolution (sx s)) (resolution (map fst (pts b))) end); unfold scl at 2; rewrite map_map; cbn [fst snd].
  - apply map_ext. intros q. apply (f_equal2 pair); [reflexivity|]. unfold scl. rewrite sortx_map. fold (scl k (sortx (combine (sx s) (sflux s)))). rewrite interp_scale. ring.
  - unfold scl. rewrite map_map. cbn [fst snd]. apply map_ext. intros q. apply (f_equal2 pair); [reflexivity|]. ring.
Qed.
(** The flux of a spectrum k times as bright is k times the flux. *)
Theorem C125_flux_scale : forall b s al ov k, computeFlux b (times k s) al ov = (times k (fst (computeFlux b s al ov)), match snd (computeFlux b s al ov) with Ok v => Ok (k * v) | Raise e => Raise e | OutOfFuel => OutOfFuel end).
Proof.
  intros b s al ov k. unfold BandModel.computeFlux. rewrite times_set. destruct (setUnit s (unit_name (bunit b))) as (s1, r1). cbn [fst snd]. rewrite times_set. change (sunit (times k s)) with (sunit s). destruct (setUnit s1 (unit_name (sunit s))) as (s2, r2). cbn [fst snd]. apply (f_equal2 pair); [reflexivity|].
  destruct r2 as [[]|e|]; try reflexivity. destruct r1 as [[]|e|]; try reflexivity. rewrite product_scale. apply finish_scale.
Qed.
(** Its magnitude is less by 2.5 log10 k. *)
Theorem C125_mag_scale : forall b s al ov k s' m, 0 < k -> computeMag b s al ov = (s', Ok m) -> (forall v, snd (computeFlux b s al ov) = Ok v -> 0 < v / zpt b) ->
  computeMag b (times k s) al ov = (times k s', Ok (m - 5 / 2 * (ln k / ln 10))).
Proof.
  intros b s al ov k s' m Hk H P. unfold BandModel.computeMag in *. rewrite C125_flux_scale. destruct (computeFlux b s al ov) as (t, r). cbn [fst snd] in *. destruct r as [v|e|]; try discriminate. injection H as <- <-. apply (f_equal2 pair); [reflexivity|]. f_equal. specialize (P v eq_refl). unfold fluxToMag, pa. replace (k * v / zpt b) with (k * (v / zpt b)) by (unfold Rdiv; ring). rewrite ln_mult by assumption. field. apply Rgt_not_eq. rewrite <- ln_1. apply ln_increasing; lra.
Qed.
(** ** The spectrum and its unit *)
Lemma expressed_unique s v s1 s2 : (match scont s with Some (CFun _) => False | _ => True end) -> expressed s v s1 -> expressed s v s2 -> s1 = s2.
Proof.
  intros NF (E1 & E2 & E3 & E4 & E5 & E6 & E7 & E8) (D1 & D2 & D3 & D4 & D5 & D6 & D7 & D8).
  assert (K : forall f f1 f2, conv_flux c h ergperev (sunit s) v (sx s) f f1 -> conv_flux c h ergperev (sunit s) v (sx s) f f2 -> f1 = f2). { intros f f1 f2 (L1 & N1) (L2 & N2). apply (nth_ext _ _ 0 0); [congruence|]. intros i Hi. rewrite N1, N2 by congruence. reflexivity. }
  assert (X : sx s1 = sx s2). { apply (nth_ext _ _ 0 0); [congruence|]. intros i Hi. rewrite E5, D5 by congruence. reflexivity. }
  pose proof (K _ _ _ E6 D6) as F. pose proof (K _ _ _ E7 D7) as Er. assert (Co : scont s1 = scont s2). { destruct (scont s) as [[l|m]|]; [|contradiction|congruence]. destruct E8 as (l1 & -> & A). destruct D8 as (l2 & -> & B). now rewrite (K _ _ _ A B). }
  clear - E1 E2 E3 D1 D2 D3 X F Er Co. destruct s1 as [a1 a2 a3 a4 a5 a6 a7], s2 as [b1 b2 b3 b4 b5 b6 b7]. cbn [sx sflux serr sunit scont scontop sz] in *. congruence.
Qed.
Lemma expressed_plain s v s' : plain s -> expressed s v s' -> plain s'.
Proof.
  intros (G & O & F) E. split; [apply (expressed_good c h ergperev Hc Hh He s v s' G E); now destruct (scont s) as [[|]|]|]. pose proof E as (_ & _ & E3 & _ & _ & _ & _ & E8). split; [congruence|]. destruct (scont s) as [[l|m]|]; [|contradiction|now rewrite E8]. destruct E8 as (l' & -> & _). exact I.
Qed.
Lemma set_named s v : plain s -> named v -> exists s', setUnit s (unit_name v) = (s', Ok tt) /\ expressed s v s' /\ plain s'.
Proof.
  intros P Nv. pose proof P as (G & O & F). destruct (setUnit_step c h ergperev Hc Hh He s (unit_name v) G O) as (s' & r & E & X & _ & _ & U & R0 & _). unfold named in Nv. rewrite Nv in U, R0. rewrite U in X. assert (r = Ok tt) as -> by (apply R0; eauto). exists s'. split; [exact E|]. split; [exact X|]. now apply (expressed_plain s v).
Qed.
Lemma set_unnamed s n : plain s -> (forall v, strToUnit n <> Ok v) -> setUnit s n = (s, Raise ValueError).
Proof.
  intros P Nv. pose proof P as (G & O & F). pose proof (C50_set c h ergperev Hc Hh He s n G O) as Q. destruct (setUnit s n) as (s', r). destruct Q as [((v & Hv) & _)|(_ & -> & ->)]; [exfalso; eapply Nv; eauto|reflexivity].
Qed.
Lemma named_or u : named u \/ forall v, strToUnit (unit_name u) <> Ok v.
Proof. destruct u; try (left; reflexivity); right; intros v; discriminate. Qed.
(** Measuring leaves the spectrum as it was. *)
Theorem C125_flux_spectrum_kept : forall b s al ov, plain s -> named (sunit s) -> fst (computeFlux b s al ov) = s.
Proof.
  intros b s al ov P Ns. unfold BandModel.computeFlux. destruct (named_or (bunit b)) as [Nb|Nb].
  - destruct (set_named s (bunit b) P Nb) as (s1 & E1 & X1 & P1). rewrite E1. destruct (set_named s1 (sunit s) P1 Ns) as (s2 & E2 & X2 & _). rewrite E2. cbn [fst]. destruct P as (G & O & F). apply (expressed_eq c h ergperev He); auto. eapply expressed_trans; eauto.
  - rewrite (set_unnamed s (unit_name (bunit b)) P Nb). destruct (set_named s (sunit s) P Ns) as (s2 & E2 & X2 & _). rewrite E2. cbn [fst]. destruct P as (G & O & F). now apply (expressed_eq c h ergperev He).
Qed.
Lemma flux_of b s al ov s1 : plain s -> named (sunit s) -> named (bunit b) -> expressed s (bunit b) s1 -> snd (computeFlux b s al ov) = finish b ov (product b s1 al).
Proof.
  intros P Ns Nb X. unfold BandModel.computeFlux. destruct (set_named s (bunit b) P Nb) as (s1' & E1 & X1 & P1). rewrite E1. destruct (set_named s1' (sunit s) P1 Ns) as (s2 & E2 & _). rewrite E2. cbn [snd]. destruct P as (_ & _ & F). now rewrite (expressed_unique s (bunit b) s1 s1' F X X1).
Qed.
(** The flux does not depend on the unit the spectrum is kept in. *)
Theorem C125_flux_unit : forall b s s' v al ov, plain s -> named (sunit s) -> named v -> named (bunit b) -> expressed s v s' -> snd (computeFlux b s' al ov) = snd (computeFlux b s al ov).
Proof.
  intros b s s' v al ov P Ns Nv Nb X. pose proof (expressed_plain s v s' P X) as P'. destruct (set_named s' (bunit b) P' Nb) as (t & _ & Xt & _). pose proof X as (U & _). rewrite (flux_of b s' al ov t P' ltac:(now rewrite U) Nb Xt). symmetry. apply flux_of; try assumption. destruct P as (G & O & F). eapply expressed_trans; eauto.
Qed.
(** With the spectrum's flux as zero point its magnitude is 0, and every other magnitude is -2.5 log10 of the ratio of the fluxes. *)
Theorem C125_zpt : forall b s al ov b' s' v, computeZpt b s al ov = (b', s', Ok tt) -> snd (computeFlux b s al ov) = Ok v -> 0 < v ->
  pts b' = pts b /\ bunit b' = bunit b /\ snd (computeMag b' s al ov) = Ok 0 /\
  forall t w, snd (computeFlux b t al ov) = Ok w -> 0 < w -> snd (computeMag b' t al ov) = Ok (- (5 / 2) * (ln (w / v) / ln 10)).
Proof.
  intros b s al ov b' s' v H Hv Pv. unfold BandModel.computeZpt in H. destruct (computeFlux b s al ov) as (s1, r) eqn:E. cbn [snd] in Hv. subst r. injection H as <- <-. set (b' := Band (pts b) (bunit b) (bnorm b) (bN b) (bcopy b) (cen b) (fwhm b) v).
  assert (S : forall t, computeFlux b' t al ov = computeFlux b t al ov) by reflexivity. split; [reflexivity|]. split; [reflexivity|]. assert (L10 : 0 < ln 10) by (rewrite <- ln_1; apply ln_increasing; lra). split.
  - unfold BandModel.computeMag. rewrite S, E. cbn [snd]. change (zpt b') with v. f_equal. unfold fluxToMag. replace (v / v) with 1 by (field; lra). rewrite ln_1. ring.
  - intros t w Ht Pw. unfold BandModel.computeMag. rewrite S. destruct (computeFlux b t al ov) as (t1, r). cbn [snd] in *. subst r. change (zpt b') with v. f_equal. unfold fluxToMag, pa. field. lra.
Qed.
(** ** What does not hold *)
(** Refuted: an array is measured through the band (computeFlux of an array never looks at the response). *)
Theorem C125_array_refuted : forall b b' y ov, map fst (pts b') = map fst (pts b) -> bunit b' = bunit b -> cen b' = cen b -> fwhm b' = fwhm b -> arrayFlux b' y ov = arrayFlux b y ov.
Proof.
  intros b b' y ov X U C W. unfold arrayFlux, finish, isOverlapped. rewrite X, U, C, W. assert (List.length (pts b') = List.length (pts b)) as -> by (rewrite <- (map_length fst (pts b')), X; apply map_length). reflexivity.
Qed.
(** Refuted: a spectrum that does not cover the band is refused when it is resampled to the band (only the band's own x are tested). *)
Theorem C125_overlap_refuted : forall b s, plain s -> named (sunit s) -> named (bunit b) -> ((exists v, snd (computeFlux b s (Some true) true) = Ok v) <-> isOverlapped b (map fst (pts b)) = true).
Proof.
  intros b s P Ns Nb. destruct (set_named s (bunit b) P Nb) as (s1 & _ & X & _). rewrite (flux_of b s (Some true) true s1 P Ns Nb X). unfold finish, product. rewrite map_map. cbn [fst]. change (map (fun x : R * R => fst x) (pts b)) with (map fst (pts b)). destruct (isOverlapped b (map fst (pts b))); cbn [andb negb]; split; intros H; eauto; try discriminate. destruct H; discriminate.
Qed.
(** Refuted: outside its table a band lets nothing through (np.interp repeats the last response). *)
Lemma interp_beyond l : forall x0 y0 x, x0 < x -> List.Forall (fun q => fst q < x) l -> interp_from x0 y0 x l = snd (last l (x0, y0)).
Proof.
  induction l as [|(x1, y1) l IH]; intros x0 y0 x L F; [reflexivity|]. inversion F as [|? ? L1 F1]; subst. cbn [fst] in L1. cbn [interp_from]. destruct (Rle_dec x x1); [lra|]. rewrite IH by assumption. destruct l as [|q l]; [reflexivity|]. f_equal. change (last ((x1, y1) :: q :: l) (x0, y0)) with (last (q :: l) (x0, y0)). destruct (@exists_last _ (q :: l) ltac:(discriminate)) as (r & z & ->). now rewrite !last_last.
Qed.
Theorem C125_edge_refuted : forall b s, pts b <> [] -> (forall q x, In q (pts b) -> In x (sx s) -> fst q < x) -> exists edge, In edge (map snd (pts b)) /\ product b s (Some false) = map (fun q => (fst q, edge * snd q)) (combine (sx s) (sflux s)).
Proof.
  intros b s N H. destruct (sortx (pts b)) as [|(x0, y0) l] eqn:E. { exfalso. apply N. pose proof (sortx_perm (pts b)) as P. rewrite E in P. now apply Permutation_nil in P. }
  exists (snd (last l (x0, y0))). split.
  - assert (In (last l (x0, y0)) (sortx (pts b))). { rewrite E. destruct l as [|q l]; [now left|]. right. destruct (@exists_last _ (q :: l) ltac:(discriminate)) as (r & z & ->). rewrite last_last. apply in_or_app. right. now left. } apply in_map. eapply Permutation_in; [apply sortx_perm|exact H0].
  - unfold product. apply map_ext_in. intros (x, fl) Hq. cbn [fst snd]. apply (f_equal2 pair); [reflexivity|]. f_equal. apply in_combine_l in Hq. assert (A : List.Forall (fun q : R * R => fst q < x) ((x0, y0) :: l)). { rewrite <- E. apply Forall_forall. intros q Iq. apply H; [|exact Hq]. eapply Permutation_in; [apply sortx_perm|exact Iq]. }
    rewrite E. inversion A as [|? ? A1 A2]; subst. cbn [fst] in A1. cbn [interp]. destruct (Rle_dec x x0); [lra|]. now apply interp_beyond.
Qed.
(** Refuted: the spectrum is always left as it was (one kept in THz stays converted, and the call fails). *)
Theorem C125_kept_refuted : forall b s al ov, plain s -> sunit s = UTHz -> named (bunit b) -> sunit (fst (computeFlux b s al ov)) = bunit b /\ snd (computeFlux b s al ov) = Raise ValueError.
Proof.
  intros b s al ov P U Nb. unfold BandModel.computeFlux. destruct (set_named s (bunit b) P Nb) as (s1 & E1 & (X & _) & P1). rewrite E1, U. rewrite (set_unnamed s1 (unit_name UTHz) P1) by (intros v; discriminate). split; [exact X|reflexivity].
Qed.
End Flux.

(** ** Examples *)
(** A triangular band at 1, 2, 3 angstrom and a flat spectrum satisfy the hypotheses. *)
Definition flat3 : spectrum := Spec [1; 2; 3] [4; 4; 4] [1; 1; 1] UAng None None 0.
Example flat3_plain : plain flat3 /\ named (sunit flat3).
Proof. split; [|reflexivity]. split; [|split; [reflexivity|exact I]]. split; [reflexivity|]. split; [reflexivity|]. split; [|exact I]. repeat constructor; cbn; lra. Qed.
Example quad3 : increasing [1; 2; 3] /\ Nat.odd (List.length [1; 2; 3]) = true /\ simps (sampled (quad 1 0 0) [1; 2; 3]) = 26 / 3.
Proof.
  assert (I : increasing [1; 2; 3]) by (repeat constructor; lra). split; [exact I|]. split; [reflexivity|]. rewrite C125_simps_exact; [|discriminate|exact I|now left]. cbn [last hd]. unfold antider. field.
Qed.
Example measured b c h ergperev : 0 < c -> 0 < h -> 0 < ergperev -> bunit b = UAng -> pts b = [(1, 1 / 2); (2, 1); (3, 1 / 2)] -> zpt b = 1 -> snd (BandModel.computeFlux c h ergperev b flat3 (Some true) false) = Ok (simps (sortx [(1, 1 / 2 * 4 * 1); (2, 1 * 4 * 2); (3, 1 / 2 * 4 * 3)])).
Proof.
  intros Hc Hh He U Pt Z. destruct flat3_plain as (P & N). rewrite (flux_of c h ergperev Hc Hh He b flat3 (Some true) false flat3); [|exact P|exact N|rewrite U; reflexivity|rewrite U; apply (expressed_refl c h ergperev He)].
  unfold finish, product. rewrite Pt, U. cbn [andb map fst snd ptype flat3 sx sflux combine]. assert (So : sortx [(1, 4); (2, 4); (3, 4)] = [(1, 4); (2, 4); (3, 4)]) by (unfold sortx; cbn [fold_right insx fst]; destruct (Rle_dec 2 3); [|lra]; cbn [insx fst]; destruct (Rle_dec 1 2); [|lra]; reflexivity). rewrite So.
  cbn [interp interp_from]. repeat match goal with |- context [Rle_dec ?a ?b] => first [destruct (Rle_dec a b) as [_|?]; [|exfalso; lra] | destruct (Rle_dec a b) as [?|_]; [exfalso; lra|]] end. replace (4 + (4 - 4) / (2 - 1) * (2 - 1)) with 4 by field. replace (4 + (4 - 4) / (3 - 2) * (3 - 2)) with 4 by field. reflexivity.
Qed.
(** ** Overlap *)
Lemma lmax_spec l : l <> [] -> In (lmax l) l /\ forall x, In x l -> x <= lmax l.
Proof.
  destruct l as [|a r]; [congruence|]. intros _. unfold lmax. induction r as [|b r (I & J)]; [cbn; split; [auto|intros x [->|[]]; lra]|].
  change (fold_right Rmax a (b :: r)) with (Rmax b (fold_right Rmax a r)). split.
  - unfold Rmax at 1; destruct (Rle_dec b (fold_right Rmax a r)) as [E|E]; [|right; now left]. destruct I as [I|I]; [left; exact I|right; now right].
  - intros x [<-|[<-|H]]; [apply Rle_trans with (fold_right Rmax a r); [apply J; now left|apply Rmax_r]|apply Rmax_l|apply Rle_trans with (fold_right Rmax a r); [apply J; now right|apply Rmax_r]].
Qed.
Lemma lmin_spec l : l <> [] -> In (lmin l) l /\ forall x, In x l -> lmin l <= x.
Proof.
  destruct l as [|a r]; [congruence|]. intros _. unfold lmin. induction r as [|b r (I & J)]; [cbn; split; [auto|intros x [->|[]]; lra]|].
  change (fold_right Rmin a (b :: r)) with (Rmin b (fold_right Rmin a r)). split.
  - unfold Rmin at 1; destruct (Rle_dec b (fold_right Rmin a r)) as [E|E]; [right; now left|]. destruct I as [I|I]; [left; exact I|right; now right].
  - intros x [<-|[<-|H]]; [apply Rle_trans with (fold_right Rmin a r); [apply Rmin_r|apply J; now left]|apply Rmin_l|apply Rle_trans with (fold_right Rmin a r); [apply Rmin_r|apply J; now right]].
Qed.
(** C125: a band overlaps x values iff they reach from its centre minus half its width to its centre plus half its width *)
Theorem C125_overlap : forall b x, x <> [] -> (isOverlapped b x = true <-> exists lo hi, In lo x /\ In hi x /\ lo <= cen b - fwhm b / 2 /\ cen b + fwhm b / 2 <= hi).
Proof.
  intros b x N. destruct (lmax_spec x N) as (A & B). destruct (lmin_spec x N) as (C & D). unfold isOverlapped, le_. rewrite andb_true_iff. split.
  - intros (H & K). exists (lmin x), (lmax x). destruct (Rle_dec (cen b + fwhm b / 2) (lmax x)); [|discriminate]. destruct (Rle_dec (lmin x) (cen b - fwhm b / 2)); [|discriminate]. auto.
  - intros (lo & hi & I & J & H & K). specialize (B hi J). specialize (D lo I). split; [destruct (Rle_dec (cen b + fwhm b / 2) (lmax x)); [trivial|lra]|destruct (Rle_dec (lmin x) (cen b - fwhm b / 2)); [trivial|lra]].
Qed.
