(** * ImphProof: C127, photometry of images *)
From Coq Require Import Reals Lra Lia List Bool String Ascii.
From Verif Require Import PyBase ImphModel.
Import ListNotations.
Open Scope R_scope.

(** ** Measurements *)
(** what a user does with a measurement object: assign an attribute, or measure with keyword arguments *)
Inductive op := Assign (a : assign) | Compute (kwargs : list assign).
Definition step comp (s : phot) (o : op) : phot := match o with Assign a => fst (setattr s a) | Compute kw => fst (computePhotometry comp s kw) end.
Definition run comp (h : list op) : phot := fold_left (step comp) h newPhot.
Definition is_total (a : assign) : bool := match a with ATotal => true | _ => false end.
(** the assignments made by keyword arguments: the ones before the first that fails *)
Fixpoint before_fail (l : list assign) : list assign := match l with [] => [] | a :: r => if is_total a then [] else a :: before_fail r end.
Definition assignments (h : list op) : list assign := flat_map (fun o => match o with Assign a => [a] | Compute kw => before_fail kw end) h.
(** the last value assigned, or None *)
Definition last_image (l : list assign) : option image := fold_left (fun c a => match a with AImage i => i | _ => c end) l None.
Definition last_loc (l : list assign) : option nat := fold_left (fun c a => match a with ALoc i => i | _ => c end) l None.
Definition last_psf (l : list assign) : option nat := fold_left (fun c a => match a with APsf i => i | _ => c end) l None.
Definition last_band (l : list assign) : option string := fold_left (fun c a => match a with ABand i => i | _ => c end) l None.
Definition last_zero (l : list assign) : option R := fold_left (fun c a => match a with AZero i => i | _ => c end) l None.

Definition agrees (s : phot) (l : list assign) : Prop :=
  p_image s = last_image l /\ p_loc s = last_loc l /\ p_psf s = last_psf l /\ p_band s = last_band l /\ p_zpt s = last_zero l.
Lemma agrees_set s l a : agrees s l -> agrees (fst (setattr s a)) (l ++ [a]).
Proof.
  intros (A & B & C & D & E). unfold agrees, last_image, last_loc, last_psf, last_band, last_zero in *. rewrite !fold_left_app. destruct a; cbn; auto 10.
Qed.
Lemma agrees_sets l kw : forall s, agrees s l -> agrees (fst (setattrs s kw)) (l ++ before_fail kw) /\ p_flux (fst (setattrs s kw)) = p_flux s /\ (snd (setattrs s kw) = Ok tt <-> List.existsb is_total kw = false).
Proof.
  revert l. induction kw as [|a r IH]; intros l s A; [cbn; rewrite app_nil_r; repeat split; trivial; apply A|].
  pose proof (agrees_set s l a A) as A'. cbn [setattrs before_fail List.existsb].
  destruct a; cbn [is_total orb setattr fst snd] in *;
    try (destruct (IH _ _ A') as (I & J & K); rewrite <- app_assoc in I; split; [exact I|split; [exact J|exact K]]).
  rewrite app_nil_r. repeat split; try apply A; discriminate.
Qed.
Lemma agrees_compute comp l kw s : agrees s l -> agrees (fst (computePhotometry comp s kw)) (l ++ before_fail kw).
Proof.
  intros A. destruct (agrees_sets l kw s A) as (I & _ & _). unfold computePhotometry. destruct (setattrs s kw) as [s' [u|e|]]; cbn [fst] in *; trivial.
  destruct (p_image s') as [i|] eqn:P; [|exact I]. destruct (comp i (p_loc s') (p_psf s')) as [[f r]|e|]; try exact I. cbn [fst]. rewrite <- P. exact I.
Qed.
Lemma agrees_run comp h : agrees (run comp h) (assignments h).
Proof.
  unfold run, assignments. induction h as [|o h IH] using rev_ind; [cbn; repeat split|].
  rewrite fold_left_app, flat_map_app. cbn [fold_left flat_map]. rewrite app_nil_r. destruct o; cbn [step]; [now apply agrees_set|now apply agrees_compute].
Qed.

(** C127: after any history the zero point and the band are the ones last assigned; None (or nothing) means the image's; without those 0 and None *)
Theorem C127_zeropoint : forall comp h z, last_zero (assignments h) = Some z -> zeropoint (run comp h) = z.
Proof. intros comp h z H. destruct (agrees_run comp h) as (_ & _ & _ & _ & E). unfold zeropoint. now rewrite E, H. Qed.
Theorem C127_zeropoint_image : forall comp h i, last_zero (assignments h) = None -> last_image (assignments h) = Some i ->
  zeropoint (run comp h) = match im_zpt i with Some z => z | None => 0 end.
Proof. intros comp h i H J. destruct (agrees_run comp h) as (A & _ & _ & _ & E). unfold zeropoint. now rewrite E, H, A, J. Qed.
Theorem C127_band : forall comp h, band (run comp h) = match last_band (assignments h), last_image (assignments h) with Some b, _ => Some b | None, Some i => im_band i | None, None => None end.
Proof.
  intros comp h. destruct (agrees_run comp h) as (A & _ & _ & D & _). unfold band. rewrite D, A. destruct (last_band (assignments h)); trivial.
  destruct (last_image (assignments h)) as [i|]; trivial. destruct (im_band i); trivial.
Qed.
(** a measurement uses the attributes last assigned, its own arguments included, and stores the total flux; without an image ValueError *)
Theorem C127_compute : forall comp h kw, existsb is_total kw = false ->
  let l := assignments (h ++ [Compute kw]) in
  match last_image l with
  | None => snd (computePhotometry comp (run comp h) kw) = Raise ValueError
  | Some i => match comp i (last_loc l) (last_psf l) with
              | Ok (f, r) => snd (computePhotometry comp (run comp h) kw) = Ok r /\ totalflux (run comp (h ++ [Compute kw])) = Ok f
              | Raise e => snd (computePhotometry comp (run comp h) kw) = Raise e
              | OutOfFuel => snd (computePhotometry comp (run comp h) kw) = OutOfFuel
              end
  end.
Proof.
  intros comp h kw T l. unfold l. clear l. unfold run at 2. rewrite fold_left_app. fold (run comp h). cbn [fold_left step].
  unfold assignments. rewrite flat_map_app. cbn [flat_map]. rewrite app_nil_r. fold (assignments h).
  destruct (agrees_sets _ kw _ (agrees_run comp h)) as ((A & B & C & _ & _) & _ & K). apply K in T.
  unfold computePhotometry. destruct (setattrs (run comp h) kw) as [s' [u|e|]]; cbn [fst snd] in *; try discriminate.
  rewrite <- A, <- B, <- C. destruct (p_image s') as [i|]; trivial. destruct (comp i (p_loc s') (p_psf s')) as [[f r]|e|]; trivial. split; trivial.
Qed.
(** which steps of a history measure successfully *)
Definition succeeds comp (s : phot) (o : op) : Prop := match o with Compute kw => exists r, snd (computePhotometry comp s kw) = Ok r | Assign _ => False end.
Lemma flux_kept comp s o l : agrees s l -> ~ succeeds comp s o -> p_flux (step comp s o) = p_flux s.
Proof.
  intros A N. destruct o as [a|kw]; cbn [step]; [destruct a; trivial|]. cbn [succeeds] in N.
  destruct (agrees_sets _ kw _ A) as (_ & J & _). unfold computePhotometry in *. destruct (setattrs s kw) as [s' [u|e|]]; cbn [fst snd] in *; trivial.
  destruct (p_image s') as [i|]; trivial. destruct (comp i (p_loc s') (p_psf s')) as [[f r]|e|]; trivial. exfalso. apply N. now exists r.
Qed.
(** C127: after any history, totalflux is the flux of the most recent measurement that succeeded; assignments and failing measurements keep it; before the first one it raises AttributeError *)
Theorem C127_totalflux_kept : forall comp h o, ~ succeeds comp (run comp h) o -> totalflux (run comp (h ++ [o])) = totalflux (run comp h).
Proof.
  intros comp h o N. unfold run at 1. rewrite fold_left_app. fold (run comp h). cbn [fold_left]. unfold totalflux. now rewrite (flux_kept comp _ _ _ (agrees_run comp h) N).
Qed.
Theorem C127_totalflux_none : forall comp h, (forall h1 o h2, h = h1 ++ o :: h2 -> ~ succeeds comp (run comp h1) o) -> totalflux (run comp h) = Raise AttributeError /\ totalmag (run comp h) = Raise AttributeError.
Proof.
  intros comp h N. assert (P : p_flux (run comp h) = None). { induction h as [|o h IH] using rev_ind; trivial.
    unfold run. rewrite fold_left_app. fold (run comp h). cbn [fold_left]. rewrite (flux_kept comp _ _ _ (agrees_run comp h)); [apply IH|apply (N h o []); trivial].
    intros h1 o' h2 E. apply (N h1 o' (h2 ++ [o])). now rewrite E, <- app_assoc. }
  unfold totalflux, totalmag. now rewrite P.
Qed.
Lemma poga_nz : poga <> 0.
Proof. unfold poga. assert (0 < ln 10) by (rewrite <- ln_1; apply ln_increasing; lra). apply Rmult_integral_contrapositive_currified; [lra|]. apply Rinv_neq_0_compat. lra. Qed.
(** the conversions of a measurement are inverse, with the zero point: flux 1 has the magnitude of the zero point, 100 times the flux is 5 magnitudes brighter *)
Theorem C127_conversions : forall s f m, 0 < f -> magToFlux s (fluxToMag s f) = f /\ fluxToMag s (magToFlux s m) = m /\ fluxToMag s 1 = zeropoint s /\ fluxToMag s (100 * f) = fluxToMag s f - 5.
Proof.
  intros s f m P. pose proof poga_nz as Z. unfold magToFlux, fluxToMag, flux_to_mag, mag_to_flux.
  replace (poga * ln f + zeropoint s - zeropoint s) with (ln f * poga) by ring. unfold Rdiv at 1. rewrite Rmult_assoc, Rinv_r, Rmult_1_r, exp_ln by trivial.
  repeat split.
  - rewrite ln_exp. field. trivial.
  - rewrite ln_1. ring.
  - replace (100 * f) with (10 * (10 * f)) by ring. rewrite ln_mult, ln_mult by lra. unfold poga. assert (0 < ln 10) by (rewrite <- ln_1; apply ln_increasing; lra). field. lra.
Qed.
(** finding: totalmag is not the magnitude of totalflux: it converts in the wrong direction *)
Theorem C127_totalmag_refuted : exists comp h f, totalflux (run comp h) = Ok f /\ 0 < f /\ totalmag (run comp h) <> Ok (fluxToMag (run comp h) f).
Proof.
  exists (fun _ _ _ => Ok (1, 0)), [Compute [AImage (Some (Image 0 None None))]], 1. cbn. repeat split; [lra|]. unfold magToFlux, fluxToMag, flux_to_mag, mag_to_flux, zeropoint. cbn. rewrite ln_1.
  intros E. injection E as E. assert (G := exp_pos ((1 - 0) / poga)). lra.
Qed.
Example C127_history_ex : forall comp, let h := [Assign (AZero (Some 25)); Compute [AImage (Some (Image 1 (Some 3) (Some "V"%string))); ALoc (Some 2%nat)]; Assign (AZero None)] in
  zeropoint (run comp h) = 3 /\ band (run comp h) = Some "V"%string /\ last_zero (assignments h) = None /\ last_loc (assignments h) = Some 2%nat.
Proof. intros comp h. rewrite C127_band. rewrite (C127_zeropoint_image comp h (Image 1 (Some 3) (Some "V"%string))); trivial. repeat split. Qed.

(** ** Gaussian PSF *)
Lemma fts_pos : 0 < fwhmtosig.
Proof. unfold fwhmtosig. apply sqrt_lt_R0. assert (0 < ln 2) by (rewrite <- ln_1; apply ln_increasing; lra). lra. Qed.
(** C127: assigning the width at half maximum is read back, and the Gaussian exp(-r^2/2 sigma^2) is one half at half of that width *)
Theorem C127_fwhm : forall w sigma, getFwhm (setFwhm w) = w /\ setFwhm (getFwhm sigma) = sigma /\
  (0 < w -> exp (- (w / 2 * (w / 2)) / (2 * (setFwhm w * setFwhm w))) = 1 / 2).
Proof.
  intros w sigma. pose proof fts_pos as P. unfold getFwhm, setFwhm. split; [field; lra|]. split; [field; lra|]. intros W.
  assert (Q : fwhmtosig * fwhmtosig = 8 * ln 2) by (unfold fwhmtosig; apply sqrt_sqrt; assert (0 < ln 2) by (rewrite <- ln_1; apply ln_increasing; lra); lra).
  replace (- (w / 2 * (w / 2)) / (2 * (w / fwhmtosig * (w / fwhmtosig)))) with (- (fwhmtosig * fwhmtosig / 8)) by (field; lra).
  rewrite Q. replace (8 * ln 2 / 8) with (ln 2) by field. rewrite exp_Ropp, exp_ln by lra. lra.
Qed.

(** ** Total flux of a model *)
Lemma getp_setp l k x q : getp l k <> None -> getp (setp l k x) q = if String.eqb k q then Some x else getp l q.
Proof.
  induction l as [|[k' v] r IH]; cbn; [congruence|]. destruct (String.eqb_spec k' k) as [->|N]; intros H; cbn.
  - destruct (String.eqb k q); trivial.
  - rewrite IH by trivial. destruct (String.eqb_spec k' q) as [->|M]; trivial. destruct (String.eqb_spec k q); congruence.
Qed.
Lemma setp_keys l k x : map fst (setp l k x) = map fst l.
Proof. induction l as [|[k' v] r IH]; cbn; trivial. destruct (String.eqb k' k); cbn; congruence. Qed.
Lemma filter_none {A} (f : A -> bool) l : (forall q, In q l -> f q = false) -> filter f l = [].
Proof. induction l as [|a r IH]; cbn; intros H; trivial. rewrite (H a) by auto. apply IH. auto. Qed.
Definition present (s : mphot) (q : string) : Prop := getp (m_params s) q <> None.
(** exactly one of the names of the normalisation is a parameter of the model *)
Definition the_norm (s : mphot) (l : list string) (p : string) : Prop := m_norm s = NSeq l /\ exists l1 l2, l = l1 ++ p :: l2 /\ present s p /\ forall q, In q (l1 ++ l2) -> ~ present s q.
(** the flux is proportional to the parameter p *)
Definition proportional (F : list (string * R) -> R) (p : string) : Prop := forall params v k, getp params p = Some v -> F (setp params p (v * k)) = F params * k.
Lemma norm_filter s l p : the_norm s l p -> filter (fun q => match getp (m_params s) q with Some _ => true | None => false end) l = [p].
Proof.
  intros (_ & l1 & l2 & -> & P & N). rewrite filter_app. cbn. rewrite !filter_none.
  - unfold present in P. destruct (getp (m_params s) p); [trivial|congruence].
  - intros q I. specialize (N q (in_or_app _ _ _ (or_intror I))). unfold present in N. destruct (getp (m_params s) q); trivial. exfalso. now apply N.
  - intros q I. specialize (N q (in_or_app _ _ _ (or_introl I))). unfold present in N. destruct (getp (m_params s) q); trivial. exfalso. now apply N.
Qed.
(** C127: after totalflux = val the total flux is val; only the normalisation changed, in proportion *)
Theorem C127_model_flux : forall F s l p val, the_norm s l p -> proportional F p -> getTotalflux F s <> 0 ->
  exists s' v, setTotalflux F s val = (s', Ok tt) /\ getTotalflux F s' = val /\ getp (m_params s) p = Some v /\ getp (m_params s') p = Some (v * val / getTotalflux F s) /\
    (forall q, q <> p -> getp (m_params s') q = getp (m_params s) q) /\ map fst (m_params s') = map fst (m_params s) /\ m_zpt s' = m_zpt s /\ m_norm s' = m_norm s.
Proof.
  intros F s l p val N H Z. assert (E := norm_filter s l p N). destruct N as (M & l1 & l2 & _ & P & _). unfold present in P.
  destruct (getp (m_params s) p) as [v|] eqn:V; [|congruence]. unfold setTotalflux. rewrite M. cbn [names]. rewrite E, V. unfold getTotalflux in *.
  destruct (Req_EM_T (F (m_params s)) 0) as [|_]; [congruence|].
  eexists. exists v. split; [reflexivity|]. cbn [m_params m_zpt m_norm]. split; [|split; [reflexivity|split; [|split; [|split; [apply setp_keys|split; [reflexivity|first [reflexivity|exact M|symmetry; exact M]]]]]]].
  - replace (v * val / F (m_params s)) with (v * (val / F (m_params s))) by (field; trivial). rewrite (H _ v) by trivial. field. trivial.
  - rewrite getp_setp by congruence. now rewrite String.eqb_refl.
  - intros q Q. rewrite getp_setp by congruence. destruct (String.eqb_spec p q); congruence.
Qed.
(** ... and likewise for magnitudes: totalmag = m is read back and makes the flux 10^(-0.4 (m - magzpt)) *)
Theorem C127_model_mag : forall F s l p m, the_norm s l p -> proportional F p -> getTotalflux F s <> 0 ->
  exists s', setTotalmag F s m = (s', Ok tt) /\ getTotalmag F s' = m /\ getTotalflux F s' = exp (ln 10 * (- (4 / 10) * (m - m_zpt s))) /\ (forall q, q <> p -> getp (m_params s') q = getp (m_params s) q).
Proof.
  intros F s l p m N H Z. unfold setTotalmag. destruct (C127_model_flux F s l p (exp (ln 10 * ((m - m_zpt s) / - (5 / 2)))) N H Z) as (s' & v & E & G & _ & _ & O & _ & M & _).
  exists s'. split; [exact E|]. unfold getTotalmag. rewrite G, M, ln_exp. assert (0 < ln 10) by (rewrite <- ln_1; apply ln_increasing; lra).
  split; [field; lra|]. split; [f_equal; field|exact O].
Qed.
(** a model with none or with several of the names keeps its parameters: ValueError; no normalisation at all: NotImplementedError *)
Theorem C127_model_error : forall F s val l, m_norm s = NSeq l -> (forall p, ~ the_norm s l p) -> setTotalflux F s val = (s, Raise ValueError).
Proof.
  intros F s val l M N. unfold setTotalflux. rewrite M. cbn [names].
  destruct (filter (fun q => match getp (m_params s) q with Some _ => true | None => false end) l) as [|p [|p' r]] eqn:E; trivial.
  exfalso. apply (N p). split; trivial. clear N M. revert E. induction l as [|q l IH]; cbn; [discriminate|]. destruct (getp (m_params s) q) eqn:Q.
  - intros E. injection E as -> E. exists [], l. repeat split; [unfold present; congruence|]. intros x I. intros P. unfold present in P.
    assert (J : In x (filter (fun q => match getp (m_params s) q with Some _ => true | None => false end) l)) by (apply filter_In; split; trivial; destruct (getp (m_params s) x); congruence).
    rewrite E in J. destruct J.
  - intros E. destruct (IH E) as (l1 & l2 & -> & P & N). exists (q :: l1), l2. repeat split; trivial. intros x [<-|I]; [unfold present; congruence|auto].
Qed.
Theorem C127_model_none : forall F s val, m_norm s = NNone -> setTotalflux F s val = (s, Raise NotImplementedError).
Proof. intros F s val M. unfold setTotalflux. now rewrite M. Qed.
(** finding: a normalisation given as the name of a parameter works only if the name has one character *)
Theorem C127_normparam_string_refuted : forall F val v z, setTotalflux F (MPhot [("Ae"%string, v)] z (NStr "Ae")) val = (MPhot [("Ae"%string, v)] z (NStr "Ae"), Raise ValueError).
Proof. reflexivity. Qed.
(** a Gaussian with amplitude A and width sig: total flux A *)
Example C127_model_ex : let F := fun params => match getp params "A"%string with Some v => v | None => 0 end in let s := MPhot [("A"%string, 2); ("sig"%string, 3)] 25 (NSeq ["A"%string; "Ae"%string]) in
  the_norm s ["A"%string; "Ae"%string] "A" /\ proportional F "A" /\ getTotalflux F s = 2.
Proof.
  intros F s. split; [|split; [|reflexivity]].
  - split; trivial. exists [], ["Ae"%string]. repeat split; [discriminate|]. intros q [<-|[]]. unfold present. cbn. congruence.
  - intros params v k G. unfold F. rewrite getp_setp, G by congruence. cbn. trivial.
Qed.
