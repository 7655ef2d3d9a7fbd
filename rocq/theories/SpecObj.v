(** * SpecObj: Spectrum objects (C50) and functional spectra (C51) *)
From Coq Require Import List Bool Reals Lra Lia String Ascii Permutation Sorted.
From Coquelicot Require Import Coquelicot.
From Verif Require Import PyBase SpecModel SpecProps.
Import ListNotations.
Open Scope R_scope.

Section C50.
Variables c h ergperev : R.
Hypothesis Hc : 0 < c.
Hypothesis Hh : 0 < h.
Hypothesis He : 0 < ergperev.
Notation scale := (scale ergperev).
Notation xtrans := (xtrans c h ergperev).
Notation xitrans := (xitrans c h ergperev).
Notation xftrans := (xftrans c h ergperev).
Notation fluxes := (fluxes c h ergperev).
Notation setUnit := (setUnit c h ergperev).
Notation applyUnits := (applyUnits c h ergperev).
Notation getUnitFlux := (getUnitFlux c h ergperev).
Notation getPhotonFlux := (getPhotonFlux c h ergperev).
Notation photon_hz := (photon_hz c h ergperev).

(** *** Specification *)
Definition cont_fits (s : spectrum) : Prop := match scont s with Some (CArr l) => List.length l = List.length (sx s) | _ => True end.
Definition good (s : spectrum) : Prop := List.length (sflux s) = List.length (sx s) /\ List.length (serr s) = List.length (sx s) /\ List.Forall (fun x => x <> 0) (sx s) /\ cont_fits s.
(** [s'] is [s] expressed in the unit [v]: same photons, flux densities (and errors, and the continuum array) converted by the rule of C49 *)
Definition conv_flux (u v : unit_) (x f f' : list R) : Prop := List.length f' = List.length f /\ forall i, (i < List.length f)%nat -> nth i f' 0 = snd (xftrans u v (nth i x 0, nth i f 0)).
Definition expressed (s : spectrum) (v : unit_) (s' : spectrum) : Prop :=
  sunit s' = v /\ sz s' = sz s /\ scontop s' = scontop s /\
  List.length (sx s') = List.length (sx s) /\ (forall i, (i < List.length (sx s))%nat -> nth i (sx s') 0 = xtrans (sunit s) v (nth i (sx s) 0)) /\
  conv_flux (sunit s) v (sx s) (sflux s) (sflux s') /\ conv_flux (sunit s) v (sx s) (serr s) (serr s') /\
  match scont s with
  | None => scont s' = None
  | Some (CArr l) => exists l', scont s' = Some (CArr l') /\ conv_flux (sunit s) v (sx s) l l'
  | Some (CFun m) => True
  end.
(** the unit selected after setting a sequence of names *)
Definition selected (u : unit_) (names : list string) : unit_ := fold_left (fun u n => match strToUnit n with Ok v => v | _ => u end) names u.
Definition run (names : list string) (s : spectrum) : spectrum := fold_left (fun s n => fst (setUnit s n)) names s.

Lemma xf_id u x f : xftrans u u (x, f) = (x, f).
Proof. unfold SpecModel.xftrans. pose proof (scale_pos _ He u) as P. destruct (ptype u); cbn [conv fst snd]; apply (f_equal2 pair); field; lra. Qed.
Lemma x_id u x : xtrans u u x = x.
Proof. unfold SpecModel.xtrans. pose proof (scale_pos _ He u) as P. destruct (ptype u); cbn [conv fst snd]; field; lra. Qed.
Lemma fluxes_length u v x f : List.length f = List.length x -> List.length (fluxes u v x f) = List.length f.
Proof. intros E. unfold SpecModel.fluxes. rewrite map_length, combine_length, E. apply Nat.min_id. Qed.
Lemma fluxes_nth u v x f i : List.length f = List.length x -> (i < List.length f)%nat -> nth i (fluxes u v x f) 0 = snd (xftrans u v (nth i x 0, nth i f 0)).
Proof.
  intros E Hi. unfold SpecModel.fluxes. rewrite (nth_indep _ 0 (snd (xftrans u v (0, 0)))) by (rewrite map_length, combine_length; lia).
  rewrite (map_nth (fun p => snd (xftrans u v p)) _ (0, 0)). rewrite combine_nth by auto. reflexivity.
Qed.
Lemma conv_flux_of u v x f : List.length f = List.length x -> conv_flux u v x f (fluxes u v x f).
Proof. intros E. split; [now apply fluxes_length|]. intros i Hi. now apply fluxes_nth. Qed.
Lemma newx u v x f : List.length f = List.length x -> List.Forall (fun x => x <> 0) x -> map (fun p => fst (xftrans u v p)) (combine x f) = map (xtrans u v) x.
Proof.
  revert f. induction x as [|a x IH]; intros [|b f] E F; cbn [List.length] in E; try discriminate; [reflexivity|]. cbn [combine map]. inversion F; subst.
  rewrite (xf_fst c h ergperev Hc Hh He) by auto. now rewrite IH by (auto; lia).
Qed.
Lemma map_xtrans_nth u v x i : (i < List.length x)%nat -> nth i (map (xtrans u v) x) 0 = xtrans u v (nth i x 0).
Proof. intros Hi. rewrite (nth_indep _ 0 (xtrans u v 0)) by now rewrite map_length. apply map_nth. Qed.
Lemma expressed_refl s : expressed s (sunit s) s.
Proof.
  unfold expressed. split; [auto|]. split; [auto|]. split; [auto|]. split; [auto|]. split; [intros; now rewrite x_id|].
  assert (forall f, conv_flux (sunit s) (sunit s) (sx s) f f) as K by (intros f; split; [auto|]; intros i Hi; now rewrite xf_id).
  split; [auto|]. split; [auto|]. destruct (scont s) as [[l|m]|]; eauto.
Qed.
Lemma conv_flux_trans u v w x x' f f' f'' : List.Forall (fun x => x <> 0) x -> List.length f = List.length x ->
  (forall i, (i < List.length x)%nat -> nth i x' 0 = xtrans u v (nth i x 0)) -> conv_flux u v x f f' -> conv_flux v w x' f' f'' -> conv_flux u w x f f''.
Proof.
  intros F E X (L1 & N1) (L2 & N2). split; [congruence|]. intros i Hi. rewrite N2 by congruence. rewrite N1 by auto. rewrite X by congruence.
  assert (nth i x 0 <> 0) as Hx by (rewrite Forall_forall in F; apply F, nth_In; congruence).
  rewrite <- (xf_compose c h ergperev Hc Hh He u v w) by auto. f_equal. f_equal. rewrite <- (xf_fst c h ergperev Hc Hh He u v _ (nth i f 0)) by auto. now destruct (xftrans u v (nth i x 0, nth i f 0)).
Qed.
Lemma expressed_trans s v s' w s'' : good s -> expressed s v s' -> (match scont s with Some (CFun _) => False | _ => True end) -> expressed s' w s'' -> expressed s w s''.
Proof.
  intros (Lf & Le & F & Cf) (E1 & E2 & E3 & E4 & E5 & E6 & E7 & E8) NF (D1 & D2 & D3 & D4 & D5 & D6 & D7 & D8). rewrite E1 in *.
  unfold expressed. split; [auto|]. split; [congruence|]. split; [congruence|]. split; [congruence|]. split.
  - intros i Hi. rewrite D5 by congruence. rewrite E5 by auto. assert (nth i (sx s) 0 <> 0) as Hx by (rewrite Forall_forall in F; apply F, nth_In; congruence).
    rewrite <- (xf_fst c h ergperev Hc Hh He (sunit s) v _ 0) by auto. rewrite <- (xf_fst c h ergperev Hc Hh He (sunit s) w _ 0) by auto. rewrite <- (xf_compose c h ergperev Hc Hh He (sunit s) v w) by auto.
    assert (fst (xftrans (sunit s) v (nth i (sx s) 0, 0)) <> 0) as H1 by (rewrite (xf_fst c h ergperev Hc Hh He) by auto; now apply (xtrans_nz c h ergperev Hc Hh He)).
    destruct (xftrans (sunit s) v (nth i (sx s) 0, 0)) as [a b]. cbn [fst] in *. now rewrite (xf_fst c h ergperev Hc Hh He).
  - split; [eapply conv_flux_trans; eauto|]. split; [eapply conv_flux_trans; eauto|].
    destruct (scont s) as [[l|m]|] eqn:Ec; [|contradiction|now rewrite E8 in D8].
    destruct E8 as (l' & E8 & E9). rewrite E8 in D8. destruct D8 as (l'' & D8 & D9). exists l''. split; [auto|]. unfold cont_fits in Cf. rewrite Ec in Cf. eapply conv_flux_trans; eauto.
Qed.
Lemma expressed_good s v s' : good s -> expressed s v s' -> (match scont s with Some (CFun _) => scont s' = None \/ scont s' = scont s | _ => True end) -> good s'.
Proof.
  intros (Lf & Le & F & Cf) (E1 & E2 & E3 & E4 & E5 & (E6 & _) & (E7 & _) & E8) EC. unfold good. split; [congruence|]. split; [congruence|]. split.
  - rewrite Forall_forall in *. intros y Hy. destruct (In_nth _ _ 0 Hy) as (i & Hi & <-). rewrite E5 by congruence. apply (xtrans_nz c h ergperev Hc Hh He). apply F, nth_In. congruence.
  - unfold cont_fits in *. destruct (scont s) as [[l|m]|]; [|destruct EC as [->| ->]; exact I|now rewrite E8]. destruct E8 as (l' & -> & (E9 & _)). congruence.
Qed.
Lemma apply_expressed s v : good s -> scontop s = None -> exists s', applyUnits s v = (s', Ok tt) /\ expressed s v s' /\ (match scont s with Some (CFun _) => scont s' = None | _ => True end).
Proof.
  intros (Lf & Le & F & Cf) Ho. unfold SpecModel.applyUnits. rewrite Ho. eexists. split; [reflexivity|]. split; [|cbn [scont]; now destruct (scont s) as [[|]|]].
  unfold expressed. cbn [sx sflux serr sunit scont scontop sz]. rewrite newx by auto. split; [auto|]. split; [auto|]. split; [congruence|]. split; [now rewrite map_length|]. split; [intros; now apply map_xtrans_nth|].
  split; [now apply conv_flux_of|]. split; [now apply conv_flux_of|]. unfold cont_fits in Cf. destruct (scont s) as [[l|m]|]; auto. eexists. split; [reflexivity|]. now apply conv_flux_of.
Qed.
Lemma setUnit_step s n : good s -> scontop s = None -> exists s' r, setUnit s n = (s', r) /\ expressed s (sunit s') s' /\ good s' /\ scontop s' = None /\
  sunit s' = (match strToUnit n with Ok v => v | _ => sunit s end) /\ (r = Ok tt <-> exists v, strToUnit n = Ok v) /\ (r = Ok tt \/ r = Raise ValueError /\ s' = s) /\
  (match scont s with Some (CFun _) => scont s' = None \/ s' = s | _ => True end).
Proof.
  intros G Ho. unfold SpecModel.setUnit. destruct (C49_name_result n) as [(v & Hv)|Hv]; rewrite Hv.
  - destruct (unit_eqb v (sunit s)) eqn:Eu.
    + apply unit_eqb_eq in Eu. subst v. exists s, (Ok tt). split; [reflexivity|]. split; [apply expressed_refl|]. repeat (split; auto); eauto. destruct (scont s) as [[|]|]; auto.
    + destruct (apply_expressed s v G Ho) as (s' & E & X & Xc). exists s', (Ok tt). split; [exact E|]. assert (sunit s' = v) as Ev by apply X. rewrite Ev.
      split; [exact X|]. split; [eapply expressed_good; eauto; destruct (scont s) as [[|]|]; auto|]. split; [rewrite <- Ho; apply X|]. repeat (split; auto); eauto. destruct (scont s) as [[|]|]; auto.
  - exists s, (Raise ValueError). split; [reflexivity|]. split; [apply expressed_refl|]. repeat (split; auto); try discriminate. { intros (v & Q). discriminate. } destruct (scont s) as [[|]|]; auto.
Qed.

(** a name is accepted exactly when it denotes a unit; otherwise ValueError, and nothing changes *)
Theorem C50_set : forall s n, good s -> scontop s = None -> let (s', r) := setUnit s n in
  ((exists v, strToUnit n = Ok v) /\ r = Ok tt) \/ ((forall v, strToUnit n <> Ok v) /\ r = Raise ValueError /\ s' = s).
Proof.
  intros s n G Ho. destruct (setUnit_step s n G Ho) as (s' & r & E & _ & _ & _ & _ & Hr & Hs & _). rewrite E. destruct Hs as [-> |(-> & ->)]; [left; split; [now apply Hr|auto]|right].
  split; [|auto]. intros v Hv. assert (@Raise unit ValueError = Ok tt) as Q by (apply Hr; eauto). discriminate.
Qed.
(** after any sequence of unit names the data are the initial data expressed in the selected unit, whatever was in between *)
Theorem C50_history : forall names s, good s -> scontop s = None -> (match scont s with Some (CFun _) => False | _ => True end) ->
  expressed s (selected (sunit s) names) (run names s).
Proof.
  intros names. unfold selected, run. induction names as [|n names IH] using rev_ind; intros s G Ho NF; [apply expressed_refl|].
  rewrite !fold_left_app. cbn [fold_left]. specialize (IH s G Ho NF). fold (run names s) in *. set (t := run names s) in *.
  assert (good t) as Gt. { eapply expressed_good; eauto. now destruct (scont s) as [[|]|]. }
  assert (scontop t = None) as Ot by (rewrite <- Ho; apply IH). destruct (setUnit_step t n Gt Ot) as (s' & r & E & X & _ & _ & U & _). rewrite E. cbn [fst].
  assert (sunit t = fold_left (fun u n => match strToUnit n with Ok v => v | _ => u end) names (sunit s)) as Et by apply IH. rewrite Et in U. rewrite <- U. eapply expressed_trans; eauto.
Qed.
(** in particular coming back to the first unit restores the data exactly *)
Lemma expressed_eq s s' : good s -> expressed s (sunit s) s' -> (match scont s with Some (CFun _) => False | _ => True end) -> s' = s.
Proof.
  intros (Lf & Le & F & Cf) (E1 & E2 & E3 & E4 & E5 & E6 & E7 & E8) NF.
  assert (forall f f', conv_flux (sunit s) (sunit s) (sx s) f f' -> f' = f) as K. { intros f f' (L & N). apply (nth_ext _ _ 0 0); [auto|]. intros i Hi. rewrite N by congruence. now rewrite xf_id. }
  destruct s as [x f e u ct op z], s' as [x' f' e' u' ct' op' z']. cbn [sx sflux serr sunit scont scontop sz] in *. subst. rewrite (K _ _ E6), (K _ _ E7).
  assert (x' = x) as -> by (apply (nth_ext _ _ 0 0); [auto|]; intros i Hi; rewrite E5 by congruence; apply x_id).
  f_equal. destruct ct as [[l|m]|]; [|contradiction|auto]. destruct E8 as (l' & -> & E9). now rewrite (K _ _ E9).
Qed.
Theorem C50_return : forall names s, good s -> scontop s = None -> (match scont s with Some (CFun _) => False | _ => True end) ->
  selected (sunit s) names = sunit s -> run names s = s.
Proof. intros names s G Ho NF E. apply expressed_eq; auto. rewrite <- E at 1. now apply C50_history. Qed.
(** a continuum model (unlike a continuum array) does not survive a change of unit *)
Theorem C50_model_lost : forall s n v m, good s -> scontop s = None -> scont s = Some (CFun m) -> strToUnit n = Ok v -> v <> sunit s -> scont (fst (setUnit s n)) = None.
Proof.
  intros s n v m G Ho Hm Hv Hn. unfold SpecModel.setUnit. rewrite Hv. destruct (unit_eqb v (sunit s)) eqn:Eu; [apply unit_eqb_eq in Eu; congruence|].
  unfold SpecModel.applyUnits. rewrite Ho. cbn [fst scont]. now rewrite Hm.
Qed.
(** while the continuum is divided out or subtracted another unit is refused and nothing changes *)
Theorem C50_locked : forall s n v o, scontop s = Some o -> strToUnit n = Ok v -> v <> sunit s -> setUnit s n = (s, Raise ValueError).
Proof.
  intros s n v o Ho Hv Hn. unfold SpecModel.setUnit. rewrite Hv. destruct (unit_eqb v (sunit s)) eqn:Eu; [apply unit_eqb_eq in Eu; congruence|]. unfold SpecModel.applyUnits. now rewrite Ho.
Qed.

(** ** getUnitFlux *)
(** returns the data in the unit asked for and leaves the spectrum as it was, unless its own unit is THz or eV or its continuum is a model *)
Theorem C50_getUnitFlux : forall s n e, good s -> scontop s = None -> (match scont s with Some (CFun _) => False | _ => True end) -> sunit s <> UTHz -> sunit s <> UeV ->
  match strToUnit n with
  | Ok v => exists x f w, getUnitFlux s n e = (s, Ok (x, f, w)) /\ x = map (xtrans (sunit s) v) (sx s) /\ conv_flux (sunit s) v (sx s) (sflux s) f /\
      match e with ENo => w = [] | EErr => conv_flux (sunit s) v (sx s) (serr s) w | EIvar => exists er, conv_flux (sunit s) v (sx s) (serr s) er /\ w = map (fun q => 1 / q / q) er end
  | _ => getUnitFlux s n e = (s, Raise ValueError)
  end.
Proof.
  intros s n e G Ho NF U1 U2. unfold SpecModel.getUnitFlux. destruct (setUnit_step s n G Ho) as (s1 & r & E & X & G1 & O1 & U & Hr & Hs & _).
  rewrite E. destruct (C49_name_result n) as [(v & Hv)|Hv]; rewrite Hv in *.
  - assert (r = Ok tt) as -> by (apply Hr; eauto). rewrite U in X. destruct (setUnit_step s1 (unit_name (sunit s)) G1 O1) as (s2 & r2 & E2 & X2 & G2 & O2 & V2 & Hr2 & Hs2 & _). rewrite (C49_reported_name (sunit s) U1 U2) in *.
    assert (r2 = Ok tt) as -> by (apply Hr2; eauto). rewrite V2 in X2. rewrite E2. assert (s2 = s) as -> by (apply expressed_eq; auto; eapply expressed_trans; eauto).
    exists (sx s1), (sflux s1), (match e with ENo => [] | EErr => serr s1 | EIvar => ivar s1 end). split; [reflexivity|]. destruct X as (X1 & X3 & X4 & X5 & X6 & X7 & X8 & X9).
    split; [apply (nth_ext _ _ 0 0); [now rewrite map_length|]; intros i Hi; rewrite X6 by congruence; symmetry; apply map_xtrans_nth; congruence|]. split; [exact X7|]. destruct e; auto. exists (serr s1). auto.
  - destruct Hs as [->|(-> & ->)]; [exfalso; destruct Hr as (Hr & _); destruct (Hr eq_refl) as (v & Q); discriminate|].
    unfold SpecModel.setUnit. rewrite (C49_reported_name (sunit s) U1 U2). assert (unit_eqb (sunit s) (sunit s) = true) as -> by now apply unit_eqb_eq. reflexivity.
Qed.
(** ... but not otherwise: with THz or eV every call fails, and leaves the spectrum in the other unit *)
Theorem C50_getUnitFlux_refuted : forall s n v e, good s -> scontop s = None -> sunit s = UTHz \/ sunit s = UeV -> strToUnit n = Ok v ->
  snd (getUnitFlux s n e) = Raise ValueError /\ sunit (fst (getUnitFlux s n e)) = v.
Proof.
  intros s n v e G Ho HU Hv. unfold SpecModel.getUnitFlux. destruct (setUnit_step s n G Ho) as (s1 & r & E & X & G1 & O1 & U & Hr & Hs & _). rewrite E, Hv in *. assert (r = Ok tt) as -> by (apply Hr; eauto).
  assert (strToUnit (unit_name (sunit s)) = Raise ValueError) as Q by (destruct HU as [-> | ->]; reflexivity). unfold SpecModel.setUnit. rewrite Q. cbn [fst snd]. auto.
Qed.
(** reading nflux leaves the spectrum in Hz *)
Theorem C50_nflux_refuted : forall s, good s -> scontop s = None -> sunit (fst (nflux c h ergperev s)) = UHz.
Proof.
  intros s G Ho. unfold nflux. destruct (setUnit_step s "hz" G Ho) as (s1 & r & E & X & G1 & O1 & U & Hr & Hs & _). rewrite E. cbn in U. assert (r = Ok tt) as -> by (apply Hr; exists UHz; reflexivity). cbn [fst]. exact U.
Qed.

(** ** photons *)
(** the photon flux density times the energy of those photons is the flux density *)
Theorem C50_photons : forall s, List.length (sflux s) = List.length (sx s) -> List.Forall (fun x => x <> 0) (sx s) -> List.length (getPhotonFlux s) = List.length (sflux s) /\
  forall i, (i < List.length (sflux s))%nat -> nth i (getPhotonFlux s) 0 * (h * photon_hz (sunit s) (nth i (sx s) 0)) = nth i (sflux s) 0.
Proof.
  intros s L F. unfold SpecModel.getPhotonFlux. split; [rewrite map_length, combine_length; lia|]. intros i Hi.
  rewrite (nth_indep _ 0 ((fun p => photon_factor c h ergperev (sunit s) (fst p) * snd p) (0, 0))) by (rewrite map_length, combine_length; lia).
  rewrite (map_nth (fun p => photon_factor c h ergperev (sunit s) (fst p) * snd p) _ (0, 0)). rewrite combine_nth by auto. cbn [fst snd].
  assert (nth i (sx s) 0 <> 0) as Hx by (rewrite Forall_forall in F; apply F, nth_In; congruence). unfold photon_factor; rewrite ?(photon_hz_scale c h ergperev). pose proof (scale_pos _ He (sunit s)) as P.
  destruct (ptype (sunit s)); field; repeat split; lra.
Qed.
(** nflux: the flux density per Hz divided by the energy of the photons *)
Theorem C50_nflux : forall s, good s -> scontop s = None -> exists l, snd (nflux c h ergperev s) = Ok l /\ List.length l = List.length (sflux s) /\
  forall i, (i < List.length (sflux s))%nat -> nth i l 0 * (h * photon_hz (sunit s) (nth i (sx s) 0)) = snd (xftrans (sunit s) UHz (nth i (sx s) 0, nth i (sflux s) 0)).
Proof.
  intros s G Ho. unfold nflux. destruct (setUnit_step s "hz" G Ho) as (s1 & r & E & X & G1 & O1 & U & Hr & Hs & _). rewrite E. assert (r = Ok tt) as -> by (apply Hr; exists UHz; reflexivity). cbn [snd].
  eexists. split; [reflexivity|]. change (sunit s1 = UHz) in U. rewrite U in X. destruct X as (_ & _ & _ & Lx & Ex & (Lf & Ef) & _). destruct G as (G1' & G2 & G3 & _). split; [rewrite map_length, combine_length; lia|]. intros i Hi.
  rewrite (nth_indep _ 0 ((fun p => snd p / h / fst p) (0, 0))) by (rewrite map_length, combine_length; lia).
  rewrite (map_nth (fun p => snd p / h / fst p) _ (0, 0)). rewrite combine_nth by lia. cbn [fst snd].
  assert (nth i (sx s) 0 <> 0) as Hx by (rewrite Forall_forall in G3; apply G3, nth_In; lia).
  rewrite Ex by lia. rewrite Ef by lia. rewrite <- (C49_same_photons c h ergperev Hc Hh He (sunit s) UHz _ Hx). unfold photon_hz. field. split; [lra|now apply (xtrans_nz c h ergperev Hc Hh He)].
Qed.
(** hence the number of photons per pixel, like the energy, does not depend on the unit *)
Theorem C50_photon_number : forall u v x f, x <> 0 -> exists d, is_derive (xtrans u v) x d /\ d <> 0 /\
  photon_factor c h ergperev v (xtrans u v x) * snd (xftrans u v (x, f)) * Rabs d = photon_factor c h ergperev u x * f.
Proof.
  intros u v x f Hx. destruct (C49_flux_density c h ergperev Hc Hh He u v x f Hx) as (d & D & Dn & E). exists d. split; [exact D|]. split; [exact Dn|]. rewrite E. cbn [snd].
  pose proof (C49_same_photons c h ergperev Hc Hh He u v x Hx) as S. assert (forall w y, y <> 0 -> photon_factor c h ergperev w y = / (h * photon_hz w y)) as P.
  { intros w y Hy. unfold photon_factor; rewrite ?(photon_hz_scale c h ergperev). pose proof (scale_pos _ He w). destruct (ptype w); field; repeat split; lra. }
  rewrite (P v) by now apply (xtrans_nz c h ergperev Hc Hh He). rewrite (P u) by auto. rewrite S. assert (Rabs d <> 0) as Da by now apply Rabs_no_R0. assert (photon_hz u x <> 0) as Hp; [|field; repeat split; auto; lra].
  rewrite !(photon_hz_scale c h ergperev). pose proof (scale_pos _ He u) as Pu. assert (x * scale u <> 0) as Q by (apply Rmult_integral_contrapositive_currified; lra).
  destruct (ptype u); auto; unfold Rdiv; apply Rmult_integral_contrapositive_currified; auto; try lra; apply Rinv_neq_0_compat; auto; lra.
Qed.

(** ** rest frame *)
Theorem C50_x0 : forall s l, sz s <> -1 -> List.length l = List.length (sflux s) -> exists s', setX0 s l = (s', Ok tt) /\ getX0 s' = l /\ sflux s' = sflux s /\ serr s' = serr s /\ sz s' = sz s /\ sunit s' = sunit s.
Proof.
  intros s l Hz L. unfold setX0. rewrite L, Nat.eqb_refl. eexists. split; [reflexivity|]. split; [|auto]. unfold getX0. cbn [sx sz]. rewrite map_map. rewrite <- (map_id l) at 2. apply map_ext. intros x. field. lra.
Qed.
Theorem C50_x0_x : forall s, sz s <> -1 -> List.length (sx s) = List.length (sflux s) -> setX0 s (getX0 s) = (s, Ok tt).
Proof.
  intros s Hz L. unfold setX0, getX0. rewrite map_length, L, Nat.eqb_refl. rewrite map_map. assert (map (fun x => x / (sz s + 1) * (sz s + 1)) (sx s) = sx s) as ->; [|now destruct s].
  rewrite <- (map_id (sx s)) at 2. apply map_ext. intros x. field. lra.
Qed.

(** ** the continuum *)
Definition nonzero_cont (s : spectrum) : Prop := match scont s with
  | None => True | Some (CArr l) => List.Forall (fun y => y <> 0) l | Some (CFun m) => forall x, List.length (m x) = List.length x /\ List.Forall (fun y => y <> 0) (m x) end.
Inductive step := SUnit (n : string) | SSub | SNorm | SRevert.
Definition do_step (s : spectrum) (o : step) : spectrum := match o with SUnit n => fst (setUnit s n) | SSub => fst (subtractContinuum s) | SNorm => fst (normalizeByContinuum s) | SRevert => fst (revertContinuum s) end.
Definition undo (s : spectrum) : spectrum := match scontop s with None => s | Some _ => fst (revertContinuum s) end.
Lemma map2_inv f g a b : List.length b = List.length a -> List.Forall (fun y => forall x, g (f x y) y = x) b -> map2 g (map2 f a b) b = a.
Proof.
  unfold map2. revert b. induction a as [|x a IH]; intros [|y b] L F; cbn [List.length] in L; try discriminate; [reflexivity|]. inversion F; subst. cbn [combine map fst snd]. rewrite H1. f_equal. apply IH; auto.
Qed.
Lemma undo_do op s : List.length (sflux s) = List.length (sx s) -> cont_fits s -> nonzero_cont s -> scontop s = None -> undo (fst (doContinuum op s)) = s.
Proof.
  intros L Cf Nz Ho. unfold doContinuum. rewrite Ho. destruct (cont_values s) as [l| |] eqn:Ec; cbn [fst]; try (unfold undo; now rewrite Ho).
  unfold undo. cbn [scontop with_flux]. unfold revertContinuum. change (cont_values (with_flux s (map2 (match op with Subtraction => Rminus | Normalize => Rdiv end) (sflux s) l) (Some op))) with (cont_values s). rewrite Ec.
  cbn [scontop with_flux fst]. assert (List.length l = List.length (sflux s) /\ List.Forall (fun y => y <> 0) l) as (Ll & Fl).
  { unfold cont_values in Ec. unfold cont_fits in Cf. unfold nonzero_cont in Nz. destruct (scont s) as [[q|m]|]; inversion Ec; subst; [split; congruence|]. destruct (Nz (sx s)). split; congruence. }
  destruct s as [x f e u ct o z]. cbn [sx sflux serr sunit scont scontop sz with_flux] in *. subst o. unfold with_flux. cbn [sx sflux serr sunit scont scontop sz]. f_equal.
  apply map2_inv; [auto|]. rewrite Forall_forall in *. intros y Hy x0. specialize (Fl y Hy). destruct op; field; auto.
Qed.
Lemma nonzero_step s n : good s -> scontop s = None -> nonzero_cont s -> nonzero_cont (fst (setUnit s n)).
Proof.
  intros G Ho Nz. destruct (setUnit_step s n G Ho) as (s' & r & E & X & G' & O' & _ & _ & _ & Cc). rewrite E. cbn [fst]. unfold nonzero_cont in *. destruct X as (_ & _ & _ & _ & _ & _ & _ & X).
  destruct (scont s) as [[l|m]|] eqn:Ec; [|destruct Cc as [->| ->]; [exact I|now rewrite Ec]|now rewrite X].
  destruct X as (l' & -> & L & N). rewrite Forall_forall in *. intros y Hy. destruct (In_nth _ _ 0 Hy) as (i & Hi & <-). rewrite N by congruence.
  destruct G as (_ & _ & Fx & Cf). unfold cont_fits in Cf. rewrite Ec in Cf. rewrite Forall_forall in Fx. assert (nth i (sx s) 0 <> 0) as Hx by (apply Fx, nth_In; congruence). assert (nth i l 0 <> 0) as Hl by (apply Nz, nth_In; congruence).
  destruct (C49_flux_density c h ergperev Hc Hh He (sunit s) (sunit s') (nth i (sx s) 0) (nth i l 0) Hx) as (d & _ & Dn & ->). cbn [snd]. unfold Rdiv. apply Rmult_integral_contrapositive_currified; [auto|]. apply Rinv_neq_0_compat. now apply Rabs_no_R0.
Qed.
Lemma undo_sub_eq s : scontop (undo s) = None \/ undo s = s /\ (exists e, snd (revertContinuum s) = Raise e).
Proof.
  unfold undo. destruct (scontop s) eqn:Eo; [|auto]. unfold revertContinuum. rewrite Eo. destruct (cont_values s) as [l|e|] eqn:E; cbn [fst snd scontop with_flux]; eauto. right.
  unfold cont_values in E. destruct (scont s) as [[|]|]; discriminate.
Qed.
(** subtracting, normalising, reverting and changing units in any order, with failures: reverting what is applied always gives the initial spectrum expressed in some unit, as if only
    (some of) the unit changes had been made; in particular the fluxes come back *)
Theorem C50_continuum : forall ops s, good s -> scontop s = None -> nonzero_cont s ->
  exists names, (forall n, In n names -> In (SUnit n) ops) /\ undo (fold_left do_step ops s) = run names s.
Proof.
  intros ops s G Ho Nz.
  assert (exists names, (forall n, In n names -> In (SUnit n) ops) /\ let t := fold_left do_step ops s in
    good (undo t) /\ scontop (undo t) = None /\ nonzero_cont (undo t) /\ undo t = run names s /\ (t = undo t \/ exists op, t = fst (doContinuum op (undo t)) /\ scontop t = Some op /\ snd (doContinuum op (undo t)) = Ok tt)) as (names & A & _ & _ & _ & B & _); [|eauto].
  induction ops as [|o ops IH] using rev_ind.
  { exists []. cbn [fold_left]. assert (undo s = s) as U by (unfold undo; now rewrite Ho). rewrite U. cbv zeta. repeat (split; auto). }
  destruct IH as (names & A & Gt & Ot & Nt & Et & Tt). rewrite fold_left_app. cbn [fold_left]. set (t := fold_left do_step ops s) in *. clearbody t. set (w := undo t) in *. cbv zeta in *.
  assert (forall n, In n names -> In (SUnit n) (ops ++ [o])) as A' by (intros n Hn; apply in_or_app; left; auto).
  assert (undo w = w) as Uw by (unfold undo; now rewrite Ot).
  assert (good w /\ scontop w = None /\ nonzero_cont w /\ w = run names s /\ (t = w \/ exists op, t = fst (doContinuum op w) /\ scontop t = Some op /\ snd (doContinuum op w) = Ok tt)) as Same by auto.
  assert (forall op, exists names0, (forall n, In n names0 -> In (SUnit n) (ops ++ [o])) /\ let t0 := fst (doContinuum op t) in good (undo t0) /\ scontop (undo t0) = None /\ nonzero_cont (undo t0) /\ undo t0 = run names0 s /\ (t0 = undo t0 \/ exists op0, t0 = fst (doContinuum op0 (undo t0)) /\ scontop t0 = Some op0 /\ snd (doContinuum op0 (undo t0)) = Ok tt)) as Do.
  { intros op. exists names. split; [exact A'|]. cbv zeta. destruct Tt as [Tw|(op0 & T1 & T2 & T3)].
    - rewrite Tw. assert (undo (fst (doContinuum op w)) = w) as Uq by (apply undo_do; auto; apply Gt). rewrite Uq. repeat (split; [tauto|]). unfold doContinuum at 1 2 3. rewrite Ot. destruct (cont_values w) as [l|x|] eqn:Ec; cbn [fst]; auto.
      right. exists op. unfold doContinuum. rewrite Ot, Ec. cbn [fst snd scontop with_flux]. auto.
    - assert (fst (doContinuum op t) = t) as Q by (unfold doContinuum; now rewrite T2). rewrite Q. fold w. repeat (split; [tauto|]). right. eauto. }
  destruct o as [n| | |]; cbn [do_step].
  - destruct Tt as [Tw|(op & T1 & T2 & T3)].
    + rewrite Tw. destruct (setUnit_step w n Gt Ot) as (s' & r & E & X & G' & O' & _). exists (names ++ [n]). split.
      { intros m Hm. apply in_app_or in Hm. apply in_or_app. destruct Hm as [Hm|[->|[]]]; [left; auto|right; now left]. }
      pose proof (nonzero_step w n Gt Ot Nt) as Nz'. rewrite E in *. cbn [fst] in *. assert (undo s' = s') as U' by (unfold undo; now rewrite O'). rewrite U'. repeat (split; [tauto|]). split; [|auto].
      unfold run. rewrite fold_left_app. cbn [fold_left]. fold (run names s). rewrite <- Et, E. reflexivity.
    + exists names. split; [exact A'|]. assert (fst (setUnit t n) = t) as Q.
      { unfold SpecModel.setUnit. destruct (strToUnit n); auto. destruct (unit_eqb a (sunit t)); auto. unfold SpecModel.applyUnits. now rewrite T2. }
      rewrite Q. fold w. repeat (split; [tauto|]). right. eauto.
  - apply Do.
  - apply Do.
  - exists names. split; [exact A'|]. destruct Tt as [Tw|(op & T1 & T2 & T3)].
    + assert (fst (revertContinuum t) = t) as Q. { unfold revertContinuum. destruct (cont_values t); auto. rewrite Tw, Ot. auto. } rewrite Q. fold w. repeat (split; [tauto|]). auto.
    + assert (fst (revertContinuum t) = w) as Q by (unfold w, undo; now rewrite T2). rewrite Q, Uw. repeat (split; [tauto|]). auto.
Qed.
(** a second operation, or a revert without one, is refused *)
Theorem C50_continuum_errors : forall s op o, (scontop s = Some o -> doContinuum op s = (s, Raise ValueError)) /\ (scontop s = None -> revertContinuum s = (s, Raise ValueError)) /\
  (scont s = None -> doContinuum op s = (s, Raise ValueError) /\ revertContinuum s = (s, Raise ValueError)).
Proof.
  intros s op o. split; [intros E; unfold doContinuum; now rewrite E|]. split.
  - intros E. unfold revertContinuum. destruct (cont_values s) eqn:Ec; rewrite ?E; auto; unfold cont_values in Ec; destruct (scont s) as [[|]|]; congruence.
  - intros E. unfold doContinuum, revertContinuum, cont_values. rewrite E. destruct (scontop s); auto.
Qed.
End C50.

(** ** the constructor *)
Lemma ins_perm p l : Permutation (ins p l) (p :: l).
Proof. induction l as [|q l IH]; cbn [ins]; [reflexivity|]. destruct (Rle_dec (fst p) (fst q)); [reflexivity|]. rewrite IH. constructor. Qed.
Lemma ins_sorted p l : StronglySorted (fun a b => fst a <= fst b) l -> StronglySorted (fun a b => fst a <= fst b) (ins p l).
Proof.
  induction l as [|q l IH]; intros S; cbn [ins]; [constructor; constructor|]. inversion S as [|? ? S' F]; subst. destruct (Rle_dec (fst p) (fst q)) as [L|L].
  - constructor; [exact S|]. constructor; [exact L|]. rewrite Forall_forall in *. intros r Hr. specialize (F r Hr). lra.
  - constructor; [now apply IH|]. rewrite Forall_forall in *. intros r Hr. apply (Permutation_in _ (ins_perm p l)) in Hr. destruct Hr as [->|Hr]; [lra|auto].
Qed.
Lemma zip_split (l : list (R * (R * R))) : combine (map fst l) (combine (map (fun p => fst (snd p)) l) (map (fun p => snd (snd p)) l)) = l.
Proof. induction l as [|[a [b q]] l IH]; cbn [map combine fst snd]; [reflexivity|]. now rewrite IH. Qed.
(** the samples are kept together and put in order of x; array errors become non-negative *)
Theorem C50_new : forall x f e name, match newSpectrum x f e name with
  | Ok s => List.length x = List.length f /\ List.length e = List.length f /\ strToUnit name = Ok (sunit s) /\ Permutation (combine (sx s) (combine (sflux s) (serr s))) (combine x (combine f (map Rabs e))) /\
            StronglySorted Rle (sx s) /\ List.Forall (fun y => 0 <= y) (serr s) /\ List.length (sflux s) = List.length (sx s) /\ List.length (serr s) = List.length (sx s) /\ sz s = 0 /\ scont s = None /\ scontop s = None
  | Raise y => y = ValueError /\ (List.length x <> List.length f \/ List.length e <> List.length f \/ forall u, strToUnit name <> Ok u)
  | OutOfFuel => False
  end.
Proof.
  intros x f e name. unfold newSpectrum. destruct (Nat.eqb_spec (List.length x) (List.length f)) as [L1|L1]; cbn [negb]; [|auto]. destruct (Nat.eqb_spec (List.length e) (List.length f)) as [L2|L2]; cbn [negb]; [|auto].
  destruct (C49_name_result name) as [(u & Hu)|Hu]; rewrite Hu; [|split; [auto|]; right; right; congruence].
  set (l := sort_x (combine x (combine f (map Rabs e)))). cbn [sx sflux serr sunit scont scontop sz].
  assert (Permutation l (combine x (combine f (map Rabs e))) /\ StronglySorted (fun a b => fst a <= fst b) l) as (P & S).
  { unfold l, sort_x. generalize (combine x (combine f (map Rabs e))). intros q. induction q as [|a q (P & S)]; cbn [fold_right]; [split; constructor|]. split; [rewrite ins_perm; now constructor|now apply ins_sorted]. }
  repeat (split; [solve [auto]|]). split; [now rewrite zip_split|]. split; [|split; [|now rewrite !map_length]].
  - clear P. induction S as [|a q S IH F]; cbn [map]; constructor; [exact IH|]. rewrite Forall_forall in *. intros y Hy. apply in_map_iff in Hy. destruct Hy as (b & <- & Hb). now apply F.
  - rewrite Forall_forall. intros y Hy. apply in_map_iff in Hy. destruct Hy as ([a [b r]] & <- & Hq). cbn [snd]. apply (Permutation_in _ P) in Hq. apply in_combine_r, in_combine_r in Hq. apply in_map_iff in Hq. destruct Hq as (z & <- & _). apply Rabs_pos.
Qed.

(** ** C51: FunctionSpectrum *)
Section C51.
Variables c h ergperev : R.
Hypothesis Hc : 0 < c.
Hypothesis Hh : 0 < h.
Hypothesis He : 0 < ergperev.
Notation xtrans := (xtrans c h ergperev).
Notation xitrans := (xitrans c h ergperev).
Notation xftrans := (xftrans c h ergperev).
Notation fsetUnit := (fsetUnit c h ergperev).
Notation fsetX := (fsetX c h ergperev).

(** *** Specification: what the flux at position [x] in unit [v] of the function [f], given in unit [u], should be *)
Definition value (u v : unit_) (f : R -> R) (x : R) : R := let x0 := xtrans v u x in snd (xftrans u v (x0, f x0)).
Inductive fop := FUnit (n : string) | FX (xs : list R).
Definition fdo (s : fspec) (o : fop) : fspec := match o with FUnit n => fst (fsetUnit s n) | FX xs => fsetX s xs end.
Definition fine (o : fop) : Prop := match o with FUnit _ => True | FX xs => List.Forall (fun x => x <> 0) xs end.
(** the spectrum [s] shows the function [f] and the error function [e], given in unit [A] *)
Definition shows (A : unit_) (f e : R -> R) (s : fspec) : Prop :=
  let b := fbase s in List.Forall (fun x => x <> 0) (sx b) /\ sflux b = map (value A (sunit b) f) (sx b) /\ serr b = map (value A (sunit b) e) (sx b).
(** exactly one of the two units is a wavelength *)
Definition opposite (A B : unit_) : Prop := (ptype A = Wav /\ ptype B <> Wav) \/ (ptype A <> Wav /\ ptype B = Wav).

Lemma value_id A f x : value A A f x = f x.
Proof. unfold value. rewrite (x_id c h ergperev He). now rewrite (xf_id c h ergperev He). Qed.
Lemma back_and_forth u v x : x <> 0 -> xtrans v u (xtrans u v x) = x.
Proof. intros Hx. exact (proj2 (C49_round_trip c h ergperev Hc Hh He u v x 0 Hx)). Qed.
Lemma xtrans_compose u v w x : x <> 0 -> xtrans v w (xtrans u v x) = xtrans u w x.
Proof.
  intros Hx. rewrite <- (xf_fst c h ergperev Hc Hh He u w x 0) by auto. rewrite <- (C49_compose c h ergperev Hc Hh He u v w) by auto. pose proof (xf_fst c h ergperev Hc Hh He u v x 0 Hx) as E. destruct (xftrans u v (x, 0)) as [a b]. cbn [fst] in E. subst a.
  symmetry. apply (xf_fst c h ergperev Hc Hh He). now apply (xtrans_nz c h ergperev Hc Hh He).
Qed.
(** a change of unit keeps showing the function *)
Lemma value_step A u v f x : x <> 0 -> snd (xftrans u v (x, value A u f x)) = value A v f (xtrans u v x).
Proof.
  intros Hx. unfold value. cbv zeta. rewrite (xtrans_compose u v A) by auto. set (x0 := xtrans u A x). assert (x0 <> 0) as H0 by now apply (xtrans_nz c h ergperev Hc Hh He).
  rewrite <- (C49_compose c h ergperev Hc Hh He A u v) by auto. f_equal. f_equal. pose proof (xf_fst c h ergperev Hc Hh He A u x0 (f x0) H0) as E. destruct (xftrans A u (x0, f x0)) as [a b]. cbn [fst snd] in *. subst a. f_equal. unfold x0. symmetry. now apply back_and_forth.
Qed.
Lemma fluxes_map u v x g : SpecModel.fluxes c h ergperev u v x (map g x) = map (fun y => snd (xftrans u v (y, g y))) x.
Proof. unfold SpecModel.fluxes. induction x as [|a x IH]; cbn [map combine]; [reflexivity|]. now rewrite IH. Qed.
Lemma newx_map u v x g : List.Forall (fun x => x <> 0) x -> map (fun p => fst (xftrans u v p)) (combine x (map g x)) = map (xtrans u v) x.
Proof. intros F. apply (newx c h ergperev Hc Hh He); [now rewrite map_length|auto]. Qed.
Lemma shows_apply A f e s v : shows A f e s -> scontop (fbase s) = None -> forall ff' fe' l' h', exists b, applyUnits c h ergperev (fbase s) v = (b, Ok tt) /\ sunit b = v /\ scontop b = None /\ shows A f e (FSpec b ff' fe' l' h').
Proof.
  intros (F & S1 & S2) Ho ff' fe' l' h'. unfold SpecModel.applyUnits. rewrite Ho. eexists. split; [reflexivity|]. split; [reflexivity|]. split; [reflexivity|]. unfold shows. cbn [fbase sx sflux serr sunit]. rewrite S1, S2. rewrite newx_map by auto. rewrite !fluxes_map.
  assert (List.Forall (fun x => x <> 0) (map (xtrans (sunit (fbase s)) v) (sx (fbase s)))) as F'. { rewrite Forall_forall in *. intros y Hy. apply in_map_iff in Hy. destruct Hy as (x & <- & Hx). apply (xtrans_nz c h ergperev Hc Hh He). auto. }
  split; [exact F'|]. rewrite !map_map. split; apply map_ext_in; intros x Hx; apply value_step; rewrite Forall_forall in F; auto.
Qed.
Lemma xf_pair u v x y : x <> 0 -> xftrans u v (x, y) = (xtrans u v x, snd (xftrans u v (x, y))).
Proof. intros Hx. rewrite <- (xf_fst c h ergperev Hc Hh He u v x y Hx). apply surjective_pairing. Qed.
(** where the recorded history describes the way back to the first unit *)
Definition way_back (A : unit_) (s : fspec) : Prop :=
  forall x, x <> 0 -> let n := List.length (fhist s) in let x0 := iter n (xitrans (fst (flast s)) (snd (flast s))) x in
    x0 = xtrans (sunit (fbase s)) A x /\ forall y, iter n (xftrans (fst (flast s)) (snd (flast s))) (x0, y) = xftrans A (sunit (fbase s)) (x0, y).
Lemma shows_setX A s xs : way_back A s -> List.Forall (fun x => x <> 0) xs -> shows A (ff s) (fe s) (fsetX s xs).
Proof.
  intros W F. unfold shows, SpecModel.fsetX. cbn [fbase sx sflux serr sunit]. split; [exact F|]. split; apply map_ext_in; intros x Hx; rewrite Forall_forall in F; destruct (W x (F x Hx)) as (W1 & W2); cbv zeta in *; rewrite W1 in *; rewrite W2; reflexivity.
Qed.
Lemma way0 A s : sunit (fbase s) = A -> fhist s = [] -> way_back A s.
Proof. intros U Hh0 x Hx. rewrite Hh0, U. cbn [List.length iter]. split; [symmetry; apply (x_id c h ergperev He)|]. intros y. symmetry. apply (xf_id c h ergperev He). Qed.
Lemma way1 A B s : sunit (fbase s) = B -> flast s = (A, B) -> List.length (fhist s) = 1%nat -> way_back A s.
Proof. intros U L Hl x Hx. rewrite Hl, L, U. cbn [iter fst snd]. split; [reflexivity|]. intros y. reflexivity. Qed.
Lemma inverse_form A B : opposite A B -> exists k, 0 < k /\ (forall x, x <> 0 -> xtrans A B x = k / x) /\ (forall x f, x <> 0 -> xftrans A B (x, f) = (k / x, f * x * x / k)).
Proof.
  intros O. destruct (forms c h ergperev Hc Hh He A B) as [K|(k & Hk & E1 & _)]; [exact K|]. exfalso. pose proof (C49_order c h ergperev Hc Hh He A B 1 2 ltac:(lra)) as Q. rewrite !E1 in Q.
  destruct O as [(O1 & O2)|(O1 & O2)]; rewrite ?O1, ?O2 in Q; [destruct (ptype B)|destruct (ptype A)]; try congruence; cbn [andb orb negb] in Q; lra.
Qed.
Lemma way2 A B s : opposite A B -> sunit (fbase s) = A -> flast s = (B, A) -> List.length (fhist s) = 2%nat -> way_back A s.
Proof.
  intros O U L Hl x Hx. rewrite Hl, L, U. cbn [iter fst snd]. destruct (inverse_form A B O) as (k & Hk & E1 & _). assert (opposite B A) as O' by (unfold opposite in *; tauto). destruct (inverse_form B A O') as (k' & Hk' & _ & E2).
  rewrite (x_id c h ergperev He). assert (xitrans B A (xitrans B A x) = x) as Q.
  { change (xtrans A B (xtrans A B x) = x). assert (k / x <> 0) as Hkx by (unfold Rdiv; apply Rmult_integral_contrapositive_currified; [lra|now apply Rinv_neq_0_compat]). rewrite !E1 by (rewrite ?E1; auto). field. split; lra. }
  rewrite Q. split; [reflexivity|]. intros y. rewrite (xf_id c h ergperev He). rewrite (E2 x) by auto. assert (k' / x <> 0) as Hkx by (unfold Rdiv; apply Rmult_integral_contrapositive_currified; [lra|now apply Rinv_neq_0_compat]). rewrite E2 by auto. apply (f_equal2 pair); field; split; lra.
Qed.

(** the initial spectrum shows the function, and still does after a change to one other unit, with any number of new x values in between *)
Theorem C51_one_change : forall A B xs f e ops1 ops2, List.Forall (fun x => x <> 0) xs -> List.Forall fine ops1 -> List.Forall fine ops2 ->
  (forall n v, In (FUnit n) ops1 -> strToUnit n = Ok v -> v = A) -> (forall n v, In (FUnit n) ops2 -> strToUnit n = Ok v -> v = B) ->
  shows A f e (fold_left fdo (ops1 ++ ops2) (newF xs f e A)).
Proof.
  intros A B xs f e ops1 ops2 F F1 F2 U1 U2. rewrite fold_left_app.
  assert (let s := fold_left fdo ops1 (newF xs f e A) in shows A f e s /\ sunit (fbase s) = A /\ fhist s = [] /\ ff s = f /\ fe s = e /\ scontop (fbase s) = None) as I1.
  { induction ops1 as [|o ops1 IH] using rev_ind.
    - cbn [fold_left newF fbase sunit fhist ff fe scontop]. split; [|auto]. unfold shows. cbn [newF fbase sx sflux serr sunit]. split; [exact F|]. split; apply map_ext; intros x; symmetry; apply value_id.
    - apply Forall_app in F1. destruct F1 as (F1 & Fo). inversion Fo as [|? ? Fo' _]; subst. rewrite fold_left_app. cbn [fold_left]. destruct IH as (S & Us & Hs & Ff & Fe & Co); [auto|intros n v Hn; apply U1; apply in_or_app; auto|].
      set (s := fold_left fdo ops1 (newF xs f e A)) in *. clearbody s. destruct o as [n|ys]; cbn [fdo].
      + unfold SpecModel.fsetUnit. destruct (C49_name_result n) as [(v & Hv)|Hv]; rewrite Hv; [|cbn [fst]; tauto]. assert (v = A) as -> by (apply (U1 n); [apply in_or_app; right; now left|auto]). rewrite Us. assert (unit_eqb A A = true) as -> by now apply unit_eqb_eq. cbn [fst]. tauto.
      + cbv zeta. split; [pose proof (shows_setX A s ys (way0 A s Us Hs) Fo') as K; rewrite Ff, Fe in K; exact K|]. unfold SpecModel.fsetX. cbn [fbase sunit fhist ff fe scontop]. tauto. }
  set (s1 := fold_left fdo ops1 (newF xs f e A)) in *. clearbody s1. cbv zeta in I1.
  assert (let s := fold_left fdo ops2 s1 in shows A f e s /\ ff s = f /\ fe s = e /\ scontop (fbase s) = None /\ ((sunit (fbase s) = A /\ fhist s = []) \/ (sunit (fbase s) = B /\ fhist s = [B] /\ flast s = (A, B)))) as I2; [|apply I2].
  induction ops2 as [|o ops2 IH] using rev_ind; [cbn [fold_left]; tauto|].
  apply Forall_app in F2. destruct F2 as (F2 & Fo). inversion Fo as [|? ? Fo' _]; subst. rewrite fold_left_app. cbn [fold_left]. destruct IH as (S & Ff & Fe & Co & Cs); [auto|intros n v Hn; apply U2; apply in_or_app; auto|].
  set (s := fold_left fdo ops2 s1) in *. clearbody s. destruct o as [n|ys]; cbn [fdo].
  - unfold SpecModel.fsetUnit. destruct (C49_name_result n) as [(v & Hv)|Hv]; rewrite Hv; [|cbn [fst]; tauto]. assert (v = B) as -> by (apply (U2 n); [apply in_or_app; right; now left|auto]).
    destruct (unit_eqb B (sunit (fbase s))) eqn:Eu; [cbn [fst]; tauto|]. assert (sunit (fbase s) <> B) as Nu by (intros Q; rewrite Q in Eu; assert (unit_eqb B B = true) as R by (now apply unit_eqb_eq); congruence).
    destruct Cs as [(Us & Hs)|(Us & _)]; [|contradiction]. destruct (shows_apply A f e s B S Co (ff s) (fe s) (sunit (fbase s), B) [B]) as (b & Eb & Ub & Cb & Sb). rewrite Eb, Hs. cbn [fst upto List.app]. cbv zeta. split; [exact Sb|]. cbn [ff fe fbase fhist flast]. rewrite Us. tauto.
  - assert (way_back A s) as W by (destruct Cs as [(Us & Hs)|(Us & Hs & Ls)]; [now apply way0|apply (way1 A B); auto; now rewrite Hs]). cbv zeta. split; [pose proof (shows_setX A s ys W Fo') as K; rewrite Ff, Fe in K; exact K|]. unfold SpecModel.fsetX. cbn [fbase sunit fhist flast ff fe scontop]. tauto.
Qed.
(** between two units of which exactly one is a wavelength: after any history *)
Theorem C51_alternating : forall A B xs f e ops, opposite A B -> List.Forall (fun x => x <> 0) xs -> List.Forall fine ops -> (forall n v, In (FUnit n) ops -> strToUnit n = Ok v -> v = A \/ v = B) ->
  shows A f e (fold_left fdo ops (newF xs f e A)).
Proof.
  intros A B xs f e ops O F F1 U1. assert (A <> B) as NAB by (intros ->; unfold opposite in O; tauto).
  assert (let s := fold_left fdo ops (newF xs f e A) in shows A f e s /\ ff s = f /\ fe s = e /\ scontop (fbase s) = None /\
    ((sunit (fbase s) = A /\ fhist s = []) \/ (sunit (fbase s) = B /\ fhist s = [B] /\ flast s = (A, B)) \/ (sunit (fbase s) = A /\ fhist s = [B; A] /\ flast s = (B, A)))) as I2; [|apply I2].
  induction ops as [|o ops IH] using rev_ind.
  { cbn [fold_left newF fbase sunit fhist ff fe scontop]. split; [|tauto]. unfold shows. cbn [newF fbase sx sflux serr sunit]. split; [exact F|]. split; apply map_ext; intros x; symmetry; apply value_id. }
  apply Forall_app in F1. destruct F1 as (F1 & Fo). inversion Fo as [|? ? Fo' _]; subst. rewrite fold_left_app. cbn [fold_left]. destruct IH as (S & Ff & Fe & Co & Cs); [auto|intros n v Hn; apply U1; apply in_or_app; auto|].
  set (s := fold_left fdo ops (newF xs f e A)) in *. clearbody s. destruct o as [n|ys]; cbn [fdo].
  - unfold SpecModel.fsetUnit. destruct (C49_name_result n) as [(v & Hv)|Hv]; rewrite Hv; [|cbn [fst]; tauto]. destruct (unit_eqb v (sunit (fbase s))) eqn:Eu; [cbn [fst]; tauto|].
    assert (sunit (fbase s) <> v) as Nu by (intros Q; rewrite Q in Eu; assert (unit_eqb v v = true) as R by (now apply unit_eqb_eq); congruence).
    assert (v = A \/ v = B) as Vv by (apply (U1 n); [apply in_or_app; right; now left|auto]).
    destruct (shows_apply A f e s v S Co (ff s) (fe s) (sunit (fbase s), v) (match upto v (fhist s) with Some q => q | None => fhist s ++ [v] end)) as (b & Eb & Ub & Cb & Sb). rewrite Eb. cbn [fst]. cbv zeta. split; [exact Sb|]. cbn [ff fe fbase fhist flast]. split; [auto|]. split; [auto|]. split; [auto|]. rewrite Ub.
    assert (unit_eqb B B = true) as EBB by now apply unit_eqb_eq. assert (unit_eqb B A = false) as EBA by (destruct (unit_eqb B A) eqn:Q; [apply unit_eqb_eq in Q; congruence|auto]).
    destruct Cs as [(Us & Hs)|[(Us & Hs & Ls)|(Us & Hs & Ls)]]; rewrite Hs, Us in *; destruct Vv as [->| ->]; try congruence; cbn [upto List.app]; rewrite ?EBB, ?EBA; auto.
  - assert (way_back A s) as W by (destruct Cs as [(Us & Hs)|[(Us & Hs & Ls)|(Us & Hs & Ls)]]; [now apply way0|apply (way1 A B); auto; now rewrite Hs|apply (way2 A B); auto; now rewrite Hs]). cbv zeta. split; [pose proof (shows_setX A s ys W Fo') as K; rewrite Ff, Fe in K; exact K|]. unfold SpecModel.fsetX. cbn [fbase sunit fhist flast ff fe scontop]. tauto.
Qed.
(** ... but not in general: after angstrom, nm, angstrom the function is evaluated at a hundredth of the position *)
Theorem C51_refuted : let s := fdo (fdo (fdo (newF [5000] (fun x => x) (fun _ => 0) UAng) (FUnit "nm")) (FUnit "ang")) (FX [5000]) in
  sunit (fbase s) = UAng /\ sx (fbase s) = [5000] /\ sflux (fbase s) = [1 / 2].
Proof.
  cbv zeta. split; [reflexivity|]. split; [reflexivity|].
  change ([let x0 := xitrans UNm UAng (xitrans UNm UAng 5000) in snd (xftrans UNm UAng (xftrans UNm UAng (x0, x0)))] = [1 / 2]).
  f_equal. cbv zeta. unfold SpecModel.xitrans, SpecModel.xftrans, ptype, conv, SpecModel.scale, fst, snd. lra.
Qed.
End C51.
