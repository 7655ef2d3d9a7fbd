(** * SpecProps: spectral units (C49), Spectrum objects (C50), functional spectra (C51) *)
From Coq Require Import List Bool Reals Lra Lia String Ascii Permutation Sorted.
From Coquelicot Require Import Coquelicot.
From Verif Require Import PyBase SpecModel.
Import ListNotations.
Open Scope R_scope.

(** ** C49: names *)
Lemma lower_char_idem a : lower_char (lower_char a) = lower_char a.
Proof. destruct a as [[] [] [] [] [] [] [] []]; reflexivity. Qed.
Lemma lower_idem s : lower (lower s) = lower s.
Proof. induction s as [|a s IH]; cbn [lower]; [reflexivity|]. now rewrite lower_char_idem, IH. Qed.
(** upper and lower case do not matter *)
Theorem C49_case : forall s t, lower s = lower t -> strToUnit s = strToUnit t.
Proof. intros s t E. unfold strToUnit. now rewrite E. Qed.
(** a unit can be given by the name the object reports, except THz and eV *)
Theorem C49_reported_name : forall u, u <> UTHz -> u <> UeV -> strToUnit (unit_name u) = Ok u.
Proof. intros [] H1 H2; try congruence; reflexivity. Qed.
Theorem C49_reported_name_refuted : strToUnit (unit_name UTHz) = Raise ValueError /\ strToUnit (unit_name UeV) = Raise ValueError /\ strToUnit "thz" = Ok UTHz /\ strToUnit "e" = Ok UeV /\ strToUnit "J" = Raise ValueError.
Proof. repeat split. Qed.
Theorem C49_name_result : forall s, (exists u, strToUnit s = Ok u) \/ strToUnit s = Raise ValueError.
Proof. intros s. unfold strToUnit. repeat match goal with |- context [if ?b then _ else _] => destruct b; [eauto|] end. auto. Qed.
Lemma unit_eqb_eq a b : unit_eqb a b = true <-> a = b. Proof. destruct a, b; cbn; split; congruence. Qed.

Section C49.
Variables c h ergperev : R.
Hypothesis Hc : 0 < c.
Hypothesis Hh : 0 < h.
Hypothesis He : 0 < ergperev.
Notation scale := (scale ergperev).
Notation xtrans := (xtrans c h ergperev).
Notation xitrans := (xitrans c h ergperev).
Notation xftrans := (xftrans c h ergperev).
Notation fluxes := (fluxes c h ergperev).

(** *** Specification: the frequency in Hz of the photons at position [x] *)
Definition photon_hz (u : unit_) (x : R) : R :=
  match u with
  | UAng => c / (x / 100000000) | UNm => c / (x / 10000000) | UMicron => c / (x / 10000) | UM => c / (100 * x) | UCm => c / x
  | UHz => x | UTHz => 1000000000000 * x
  | UeV => x * ergperev / h | UErg => x / h
  end.
Lemma photon_hz_scale u x : photon_hz u x = match ptype u with Wav => c / (x * scale u) | Freq => x * scale u | En => x * scale u / h end.
Proof. unfold photon_hz. destruct u; cbn [ptype]; unfold SpecModel.scale; try (apply (f_equal (Rdiv c))); try lra; f_equal; lra. Qed.

Lemma scale_pos u : 0 < scale u.
Proof. destruct u; unfold SpecModel.scale; auto; try lra; apply Rinv_0_lt_compat; lra. Qed.
(** every change of unit is k x or k / x *)
Lemma forms u v : (exists k, 0 < k /\ (forall x, x <> 0 -> xtrans u v x = k / x) /\ (forall x f, x <> 0 -> xftrans u v (x, f) = (k / x, f * x * x / k))) \/
  (exists k, 0 < k /\ (forall x, xtrans u v x = k * x) /\ (forall x f, xftrans u v (x, f) = (k * x, f / k))).
Proof.
  unfold SpecModel.xtrans, SpecModel.xftrans. pose proof (scale_pos u) as Hu. pose proof (scale_pos v) as Hv. generalize dependent (scale u). generalize dependent (scale v). intros sv Hv su Hu.
  assert (0 < su * sv) as Hp by now apply Rmult_lt_0_compat. assert (0 < h * c) as Hhc by now apply Rmult_lt_0_compat.
  destruct (ptype u), (ptype v); cbn [conv fst snd].
  1,5,9: right; exists (su / sv); split; [apply Rdiv_lt_0_compat; auto|]; split; intros; [|apply (f_equal2 pair)]; field; lra.
  - left. exists (c / (su * sv)). split; [apply Rdiv_lt_0_compat; auto|]. split; intros; [|apply (f_equal2 pair)]; field; repeat split; lra.
  - left. exists (h * c / (su * sv)). split; [apply Rdiv_lt_0_compat; auto|]. split; intros; [|apply (f_equal2 pair)]; field; repeat split; lra.
  - left. exists (c / (su * sv)). split; [apply Rdiv_lt_0_compat; auto|]. split; intros; [|apply (f_equal2 pair)]; field; repeat split; lra.
  - right. exists (h * su / sv). split; [apply Rdiv_lt_0_compat; [apply Rmult_lt_0_compat|]; auto|]. split; intros; [|apply (f_equal2 pair)]; field; repeat split; lra.
  - left. exists (h * c / (su * sv)). split; [apply Rdiv_lt_0_compat; auto|]. split; intros; [|apply (f_equal2 pair)]; field; repeat split; lra.
  - right. exists (su / h / sv). split; [apply Rdiv_lt_0_compat; [apply Rdiv_lt_0_compat|]; auto|]. split; intros; [|apply (f_equal2 pair)]; field; repeat split; lra.
Qed.
Lemma xf_fst u v x f : x <> 0 -> fst (xftrans u v (x, f)) = xtrans u v x.
Proof. intros Hx. destruct (forms u v) as [(k & _ & E1 & E2)|(k & _ & E1 & E2)]; rewrite E1, E2; auto. Qed.
Lemma xtrans_nz u v x : x <> 0 -> xtrans u v x <> 0.
Proof. intros Hx. destruct (forms u v) as [(k & Hk & E1 & _)|(k & Hk & E1 & _)]; rewrite E1 by auto; [|apply Rmult_integral_contrapositive_currified; lra]. unfold Rdiv. apply Rmult_integral_contrapositive_currified; [lra|]. now apply Rinv_neq_0_compat. Qed.
Lemma xtrans_pos u v x : 0 < x -> 0 < xtrans u v x.
Proof. intros Hx. destruct (forms u v) as [(k & Hk & E1 & _)|(k & Hk & E1 & _)]; rewrite E1 by lra; [apply Rdiv_lt_0_compat|apply Rmult_lt_0_compat]; auto. Qed.
Lemma xf_compose u v w x f : x <> 0 -> xftrans v w (xftrans u v (x, f)) = xftrans u w (x, f).
Proof.
  intros Hx. unfold SpecModel.xftrans. pose proof (scale_pos u) as Hu. pose proof (scale_pos v) as Hv. pose proof (scale_pos w) as Hw. generalize dependent (scale u). generalize dependent (scale v). generalize dependent (scale w). intros sw Hw sv Hv su Hu.
  destruct (ptype u), (ptype v), (ptype w); cbn [conv fst snd]; apply (f_equal2 pair); field; repeat split; lra.
Qed.
(** changing units does not change which photons are meant *)
Theorem C49_same_photons : forall u v x, x <> 0 -> photon_hz v (xtrans u v x) = photon_hz u x.
Proof.
  intros u v x Hx. rewrite !photon_hz_scale; unfold SpecModel.xtrans. pose proof (scale_pos u) as Hu. pose proof (scale_pos v) as Hv. generalize dependent (scale u). generalize dependent (scale v). intros sv Hv su Hu.
  destruct (ptype u), (ptype v); cbn [conv fst snd]; field; repeat split; lra.
Qed.
(** the flux density is divided by how much the axis is stretched: f |dx| stays the same *)
Theorem C49_flux_density : forall u v x f, x <> 0 -> exists d, is_derive (xtrans u v) x d /\ d <> 0 /\ xftrans u v (x, f) = (xtrans u v x, f / Rabs d).
Proof.
  intros u v x f Hx. destruct (forms u v) as [(k & Hk & E1 & E2)|(k & Hk & E1 & E2)].
  - exists (- k / (x * x)). assert (0 < x * x) as Hxx by (apply Rsqr_pos_lt; exact Hx). split; [|split].
    + apply (is_derive_ext_loc (fun y => k / y)).
      * assert (0 < Rabs x) as Ha by now apply Rabs_pos_lt. exists (mkposreal _ Ha). intros y Hy. symmetry. apply E1. intros ->. unfold ball in Hy. cbn in Hy. unfold AbsRing_ball, abs, minus, plus, opp in Hy. cbn in Hy. replace (0 + - x) with (- x) in Hy by ring. rewrite Rabs_Ropp in Hy. lra.
      * auto_derive; [exact Hx|]. field. exact Hx.
    + intros Q. assert (- k = 0) as Q2 by (replace (- k) with (- k / (x * x) * (x * x)) by (field; exact Hx); rewrite Q; ring). lra.
    + rewrite E2, E1 by auto. apply (f_equal2 pair); [reflexivity|]. rewrite Rabs_div by lra. rewrite Rabs_Ropp, (Rabs_pos_eq k), (Rabs_pos_eq (x * x)) by lra. field. split; lra.
  - exists k. split; [|split; [lra|]].
    + apply (is_derive_ext (fun y => k * y)); [intros; symmetry; apply E1|]. auto_derive; [exact I|ring].
    + rewrite E2, E1, (Rabs_pos_eq k) by lra. reflexivity.
Qed.
(** back again, and several changes are one *)
Theorem C49_round_trip : forall u v x f, x <> 0 -> xftrans v u (xftrans u v (x, f)) = (x, f) /\ xitrans u v (xtrans u v x) = x.
Proof.
  intros u v x f Hx. split.
  - rewrite xf_compose by auto. destruct (forms u u) as [(k & Hk & E1 & E2)|(k & Hk & E1 & E2)].
    + unfold SpecModel.xftrans. pose proof (scale_pos u). destruct (ptype u); cbn [conv fst snd]; apply (f_equal2 pair); field; lra.
    + unfold SpecModel.xftrans. pose proof (scale_pos u). destruct (ptype u); cbn [conv fst snd]; apply (f_equal2 pair); field; lra.
  - change (xtrans v u (xtrans u v x) = x). unfold SpecModel.xtrans. pose proof (scale_pos u) as Hu. pose proof (scale_pos v) as Hv. generalize dependent (scale u). generalize dependent (scale v). intros sv Hv su Hu.
    destruct (ptype u), (ptype v); cbn [conv fst snd]; field; repeat split; lra.
Qed.
Theorem C49_compose : forall u v w x f, x <> 0 -> xftrans v w (xftrans u v (x, f)) = xftrans u w (x, f).
Proof. exact xf_compose. Qed.
(** the axis is reversed exactly between wavelengths and the rest *)
Theorem C49_order : forall u v x y, 0 < x < y -> if (match ptype u with Wav => true | _ => false end) && negb (match ptype v with Wav => true | _ => false end) || negb (match ptype u with Wav => true | _ => false end) && (match ptype v with Wav => true | _ => false end) then xtrans u v y < xtrans u v x else xtrans u v x < xtrans u v y.
Proof.
  intros u v x y Hxy. unfold SpecModel.xtrans. pose proof (scale_pos u) as Hu. pose proof (scale_pos v) as Hv. generalize dependent (scale u). generalize dependent (scale v). intros sv Hv su Hu.
  assert (0 < h * c) as Hhc by now apply Rmult_lt_0_compat.
  assert (x * su < y * su) as L by (apply Rmult_lt_compat_r; lra). assert (0 < x * su) as L0 by (apply Rmult_lt_0_compat; lra).
  assert (forall k, 0 < k -> k / (y * su) < k / (x * su)) as K. { intros k Hk. unfold Rdiv. apply Rmult_lt_compat_l; [auto|]. apply Rinv_lt_contravar; [apply Rmult_lt_0_compat; lra|auto]. }
  assert (forall a b, a < b -> a / sv < b / sv) as D by (intros a b Hab; unfold Rdiv; apply Rmult_lt_compat_r; [now apply Rinv_0_lt_compat|auto]).
  destruct (ptype u), (ptype v); cbn [conv fst snd andb negb orb]; apply D; auto.
  - apply Rmult_lt_compat_l; auto.
  - unfold Rdiv. apply Rmult_lt_compat_r; [now apply Rinv_0_lt_compat|auto].
Qed.
(** the energy between two positions is conserved, for every continuous spectrum [f] *)
Theorem C49_energy : forall u v (f : R -> R) a b, 0 < a <= b -> (forall x, 0 < x -> continuous f x) ->
  let g := fun y => let x := xitrans u v y in snd (xftrans u v (x, f x)) in
  Rabs (RInt g (xtrans u v a) (xtrans u v b)) = Rabs (RInt f a b).
Proof.
  intros u v f a b Hab Hf g. assert (forall x, 0 < x -> xitrans u v (xtrans u v x) = x) as Inv by (intros x Hx; apply (proj2 (C49_round_trip u v x 0 ltac:(lra)))).
  assert (forall y, 0 < y -> 0 < xitrans u v y) as Ip by (intros y Hy; change (0 < xtrans v u y); now apply xtrans_pos).
  assert (forall x, Rmin a b <= x <= Rmax a b -> 0 < x) as Pos by (intros x; rewrite Rmin_left by lra; lra).
  assert (forall y, 0 < y -> continuous (xitrans u v) y) as Ci.
  { intros y Hy. change (continuous (xtrans v u) y). destruct (C49_flux_density v u y 0 ltac:(lra)) as (d & D & _). apply (@ex_derive_continuous R_AbsRing R_NormedModule (xtrans v u) y). exists d. exact D. }
  destruct (forms u v) as [(k & Hk & E1 & E2)|(k & Hk & E1 & E2)].
  - assert (forall y, 0 < y -> continuous g y) as Cg.
    { intros y Hy. apply (continuous_ext_loc (T:=R_UniformSpace) (U:=R_UniformSpace) g (fun y : R => f (xitrans u v y) * xitrans u v y * xitrans u v y / k)).
      - exists (mkposreal y Hy). intros t Ht. unfold ball in Ht. cbn in Ht. unfold AbsRing_ball, abs, minus, plus, opp in Ht. cbn in Ht. assert (0 < t) as Ht0 by (apply Rabs_def2 in Ht; lra). unfold g. cbv zeta. rewrite E2; [reflexivity|]. pose proof (Ip t Ht0). lra.
      - unfold Rdiv. apply (continuous_mult (K:=R_AbsRing)); [|apply continuous_const]. repeat (apply (continuous_mult (K:=R_AbsRing)); [|apply Ci; auto]). apply (continuous_comp (xitrans u v) f); [apply Ci; auto|apply Hf, Ip, Hy]. }
    rewrite <- (RInt_comp g (xtrans u v) (fun x => - k / (x * x)) a b).
    + rewrite (RInt_ext _ (fun x => opp (f x))).
      * rewrite (RInt_opp f). { unfold opp. cbn. apply Rabs_Ropp. } apply (ex_RInt_continuous f). intros x Hx. apply Hf, Pos, Hx.
      * intros x Hx. assert (0 < x) as Hx0 by (apply Pos; lra). change (- k / (x * x) * g (xtrans u v x) = - f x). unfold g. cbv zeta. rewrite Inv by auto. rewrite E2 by lra. cbn [snd]. field. split; lra.
    + intros x Hx. apply Cg. apply xtrans_pos. apply Pos, Hx.
    + intros x Hx. assert (0 < x) as Hx0 by (apply Pos; exact Hx). split.
      * apply (is_derive_ext_loc (fun y => k / y)); [|auto_derive; [lra|field; lra]].
        exists (mkposreal x Hx0). intros t Ht. unfold ball in Ht. cbn in Ht. unfold AbsRing_ball, abs, minus, plus, opp in Ht. cbn in Ht. symmetry. apply E1. apply Rabs_def2 in Ht. lra.
      * apply (@ex_derive_continuous R_AbsRing R_NormedModule (fun x => - k / (x * x)) x). auto_derive. apply Rgt_not_eq. now apply Rmult_lt_0_compat.
  - assert (forall y, 0 < y -> continuous g y) as Cg.
    { intros y Hy. apply (continuous_ext (fun y => f (xitrans u v y) / k)); [intros t; unfold g; cbv zeta; now rewrite E2|]. unfold Rdiv. apply (continuous_mult (K:=R_AbsRing)); [|apply continuous_const]. apply (continuous_comp (xitrans u v) f); [apply Ci; auto|apply Hf, Ip, Hy]. }
    rewrite <- (RInt_comp g (xtrans u v) (fun x => k) a b).
    + rewrite (RInt_ext _ f); [reflexivity|]. intros x Hx. assert (0 < x) as Hx0 by (apply Pos; lra). change (k * g (xtrans u v x) = f x). unfold g. cbv zeta. rewrite Inv by auto. rewrite E2. cbn [snd]. field. lra.
    + intros x Hx. apply Cg. apply xtrans_pos. apply Pos, Hx.
    + intros x Hx. split; [|apply continuous_const]. apply (is_derive_ext (fun y => k * y)); [intros; symmetry; apply E1|]. auto_derive; [exact I|ring].
Qed.
End C49.
