(** * ExtSpec: flux ratios, spectra, the remaining extinction laws and the deprecated function (C123) *)
From Coq Require Import Reals List Bool String Ascii Lra Lia Psatz.
From Verif Require Import PyBase SpecModel SpecProps SpecObj ExtModel ExtProof.
Import ListNotations.
Open Scope R_scope.

(** ** The extinction from the ratio of two lines *)
Lemma one_A0_ratio e r r0 l1 l2 a F1 F2 : 0 < F1 -> 0 < F2 -> r = F1 / F2 -> 0 < r0 -> one_A0 e r r0 l1 l2 = Ok a ->
  (forall v1 v2, f (lw e) (rv e) l1 = Ok v1 -> f (lw e) (rv e) l2 = Ok v2 -> v1 <> v2) ->
  exists G1 G2, correctFlux (set_A0 e a) F1 (BWl l1) = Ok G1 /\ correctFlux (set_A0 e a) F2 (BWl l2) = Ok G2 /\ G1 / G2 = r0.
Proof.
  intros P1 P2 Er P0 H N. unfold one_A0 in H. unfold correctFlux, call, set_A0. cbn [lw rv a0]. destruct (f (lw e) (rv e) l1) as [v1|x|]; try discriminate. destruct (f (lw e) (rv e) l2) as [v2|x|]; try discriminate.
  specialize (N v1 v2 eq_refl eq_refl). injection H as <-. eexists. eexists. split; [reflexivity|]. split; [reflexivity|].
  set (a := -2.5 * log10 (r / r0) / (v1 - v2)). assert (Ea : a * v1 / 2.5 = a * v2 / 2.5 + log10 (r0 / r)).
  { assert (Ei : log10 (r0 / r) = - log10 (r / r0)). { assert (Pr : 0 < r) by (subst r; now apply Rdiv_lt_0_compat). unfold log10. replace (r0 / r) with (/ (r / r0)) by (field; lra). rewrite ln_Rinv by (apply Rdiv_lt_0_compat; auto). pose proof ln10_pos. field. lra. }
    rewrite Ei. assert (Em : a * (v1 - v2) = -2.5 * log10 (r / r0)) by (unfold a; field; lra). lra. }
  rewrite Ea, pow10_plus. assert (Pr : 0 < r) by (subst r; now apply Rdiv_lt_0_compat). rewrite pow10_log10 by (now apply Rdiv_lt_0_compat). pose proof (pow10_pos (a * v2 / 2.5)) as Q. rewrite Er. field. lra.
Qed.
(** The line named by a letter of a transition. *)
Definition letters (n : string) : option (string * string) := match n with String "H" (String a (String b EmptyString)) => Some (String "H" (String a EmptyString), String "H" (String b EmptyString)) | _ => None end.
Lemma balmer_lines n r0 l1 l2 : balmer n = Some (r0, l1, l2) -> exists n1 n2, letters n = Some (n1, n2) /\ line_wl n1 = Some l1 /\ line_wl n2 = Some l2 /\ 1 < r0.
Proof.
  unfold balmer. intros H.
  repeat match type of H with (if (n =? ?s)%string then _ else _) = _ => destruct (String.eqb_spec n s) as [-> |_]; [injection H as <- <- <-; eexists; eexists; split; [reflexivity|]; split; [reflexivity|]; split; [reflexivity|lra]|] end.
  discriminate.
Qed.
(** After deriving A0 from one measured Balmer ratio of the positive fluxes F1, F2, the corrected fluxes of the two lines
    named by the letters of the transition have the tabulated ratio; law and Rv are kept. *)
Theorem C123_balmer : forall e n r0 l1 l2 F1 F2, balmer n = Some (r0, l1, l2) -> 0 < F1 -> 0 < F2 ->
  (exists v1 v2, f (lw e) (rv e) l1 = Ok v1 /\ f (lw e) (rv e) l2 = Ok v2 /\ v1 <> v2) ->
  forall filt, (forall a, filt [a] = a) ->
  exists e' n1 n2 G1 G2, computeA0 e [F1 / F2] (EName n) filt = (e', Ok (a0 e')) /\ lw e' = lw e /\ rv e' = rv e /\ letters n = Some (n1, n2) /\
    correctFlux e' F1 (BName n1) = Ok G1 /\ correctFlux e' F2 (BName n2) = Ok G2 /\ G1 / G2 = r0.
Proof.
  intros e n r0 l1 l2 F1 F2 Hb P1 P2 (v1 & v2 & E1 & E2 & N) filt Hf. destruct (balmer_lines n r0 l1 l2 Hb) as (n1 & n2 & Hn & L1 & L2 & P0).
  unfold computeA0. rewrite Hb. cbn [mapr]. destruct (one_A0 e (F1 / F2) r0 l1 l2) as [a|x|] eqn:Ea; try (unfold one_A0 in Ea; rewrite E1, E2 in Ea; discriminate). rewrite Hf.
  destruct (one_A0_ratio e (F1 / F2) r0 l1 l2 a F1 F2 P1 P2 eq_refl ltac:(lra) Ea) as (G1 & G2 & C1 & C2 & EG).
  { intros u1 u2 U1 U2. congruence. }
  exists (set_A0 e a), n1, n2, G1, G2. rewrite (C123_flux_names _ _ _ _ L1), (C123_flux_names _ _ _ _ L2). repeat (split; [first [reflexivity|assumption]|]). assumption.
Qed.
(** The same for a given ratio at two given wavelengths. *)
Theorem C123_given_ratio : forall e r0 l1 l2 F1 F2, 0 < r0 -> 0 < F1 -> 0 < F2 ->
  (exists v1 v2, f (lw e) (rv e) l1 = Ok v1 /\ f (lw e) (rv e) l2 = Ok v2 /\ v1 <> v2) ->
  forall filt, (forall a, filt [a] = a) ->
  exists e' G1 G2, computeA0 e [F1 / F2] (ENums [r0] (Some [(l1, l2)])) filt = (e', Ok (a0 e')) /\ lw e' = lw e /\ rv e' = rv e /\
    correctFlux e' F1 (BWl l1) = Ok G1 /\ correctFlux e' F2 (BWl l2) = Ok G2 /\ G1 / G2 = r0.
Proof.
  intros e r0 l1 l2 F1 F2 P0 P1 P2 (v1 & v2 & E1 & E2 & N) filt Hf.
  unfold computeA0. cbn [List.length Nat.eqb combine mapr]. destruct (one_A0 e (F1 / F2) r0 l1 l2) as [a|x|] eqn:Ea; try (unfold one_A0 in Ea; rewrite E1, E2 in Ea; discriminate). rewrite Hf.
  destruct (one_A0_ratio e (F1 / F2) r0 l1 l2 a F1 F2 P1 P2 eq_refl P0 Ea) as (G1 & G2 & C1 & C2 & EG).
  { intros u1 u2 U1 U2. congruence. }
  exists (set_A0 e a), G1, G2. repeat (split; [first [reflexivity|assumption]|]). assumption.
Qed.
(** A derivation that fails leaves the object as it was. *)
Theorem C123_ratio_atomic : forall e ms ex filt e' x, computeA0 e ms ex filt = (e', Raise x) -> e' = e.
Proof.
  intros e ms ex filt e' x H. unfold computeA0 in H. destruct ex as [n|l|r|l w].
  - destruct (balmer n) as [[[r0 l1] l2]|]; [|congruence]. destruct (mapr _ ms); congruence.
  - destruct l; congruence.
  - congruence.
  - destruct l; [congruence|]. destruct w as [w|]; [|congruence]. destruct (List.length w =? 0)%nat; [congruence|]. destruct (mapr _ _); congruence.
Qed.
(** Refuted: a list of transitions (whatever the measurements), a number as the expected ratio. *)
Theorem C123_ratio_lists_refuted : forall e ms filt n l, List.Forall (fun n => balmer n <> None) (n :: l) -> computeA0 e ms (ENames (n :: l)) filt = (e, Raise NameError).
Proof.
  intros e ms filt n l H. unfold computeA0. replace (forallb _ (n :: l)) with true; [reflexivity|]. symmetry. apply forallb_forall. intros m Hm. rewrite List.Forall_forall in H. specialize (H m Hm). now destruct (balmer m).
Qed.
Theorem C123_ratio_number_refuted : forall e ms filt r, computeA0 e ms (ENum r) filt = (e, Raise TypeError).
Proof. reflexivity. Qed.

(** ** The laws again *)
Lemma f_opt Rv lam : 0 < lam -> 1.1 <= 10000 / lam < 3.3 -> f Cardelli Rv lam = Ok (opt_a (10000 / lam - 1.82) + opt_b (10000 / lam - 1.82) / Rv).
Proof. intros Hl H. unfold f. cbv zeta. unfold ccm_range. rewrite ltb_false, ltb_false by lra. cbn [orb negb]. destruct (ccm_optical (10000 / lam) H) as (-> & ->). reflexivity. Qed.
Section Reddening.
Variable cen : string -> @res R.
Lemma newEBmV_A l E Rv e v n w u : newEBmV l E Rv = Ok e -> f l Rv 5510 = Ok v -> builtin_wl n = Some w -> f l Rv w = Ok u -> Alambda cen e (BName n) = Ok (Rv * E / v * u).
Proof.
  intros H Hv Hn Hu. unfold newEBmV, setEBmV in H. cbn [lw rv] in H. rewrite Hv in H. injection H as <-. rewrite A_def. cbn [wl_of]. unfold bandwl. rewrite Hn. unfold call. cbn [lw rv a0]. now rewrite Hu.
Qed.
Lemma div_le a b r : 0 < r -> a <= b -> a / r <= b / r.
Proof. intros Hr H. apply Rmult_le_compat_r; [|exact H]. left. now apply Rinv_0_lt_compat. Qed.
Lemma over a b r : 0 < r -> 0 < a * r + b -> 0 < a + b / r.
Proof. intros Hr H. replace (a + b / r) with ((a * r + b) / r) by (field; lra). now apply Rdiv_lt_0_compat. Qed.
Ltac val := unfold opt_a, opt_b; lra.
(** Reddening: with the Cardelli law, 1 <= Rv <= 10 and positive E(B-V), A(U) > A(B) > A(V) > A(R) > A(I) > 0; so every correction makes the blue bands gain more. *)
Theorem C123_reddening : forall E Rv e, 0 < E -> 1 <= Rv <= 10 -> newEBmV Cardelli E Rv = Ok e ->
  exists U B V R I, Alambda cen e (BName "U") = Ok U /\ Alambda cen e (BName "B") = Ok B /\ Alambda cen e (BName "V") = Ok V /\ Alambda cen e (BName "R") = Ok R /\ Alambda cen e (BName "I") = Ok I /\
    U > B /\ B > V /\ V > R /\ R > I /\ I > 0.
Proof.
  intros E Rv e HE HR H. destruct (f_V_pos Cardelli Rv) as (v & Hv & Pv); [unfold standard; auto|lra|].
  assert (A : forall n w, builtin_wl n = Some w -> 0 < w -> 1.1 <= 10000 / w < 3.3 -> Alambda cen e (BName n) = Ok (Rv * E / v * (opt_a (10000 / w - 1.82) + opt_b (10000 / w - 1.82) / Rv))).
  { intros n w Hn Hw Hx. apply (newEBmV_A Cardelli E Rv e v n w); auto. now apply f_opt. }
  do 5 eexists. split; [apply (A "U"%string 3650); [reflexivity|lra|lra]|]. split; [apply (A "B"%string 4450); [reflexivity|lra|lra]|]. split; [apply (A "V"%string 5510); [reflexivity|lra|lra]|].
  split; [apply (A "R"%string 6580); [reflexivity|lra|lra]|]. split; [apply (A "I"%string 8060); [reflexivity|lra|lra]|].
  assert (K : 0 < Rv * E / v) by (apply Rdiv_lt_0_compat; [apply Rmult_lt_0_compat; lra|exact Pv]). clear A.
  assert (M : forall a1 b1 a2 b2, 0 < (a1 - a2) * Rv + (b1 - b2) -> Rv * E / v * (a1 + b1 / Rv) > Rv * E / v * (a2 + b2 / Rv)).
  { intros a1 b1 a2 b2 Q. apply Rmult_lt_compat_l; [exact K|]. pose proof (over (a1 - a2) (b1 - b2) Rv ltac:(lra) Q) as Q'. unfold Rdiv in *. lra. }
  assert (BU : 0.95 < opt_a (10000 / 3650 - 1.82) < 0.97 /\ 1.8 < opt_b (10000 / 3650 - 1.82) < 2) by (split; split; val).
  assert (BB : 1.0015 < opt_a (10000 / 4450 - 1.82) < 1.01 /\ 0.9 < opt_b (10000 / 4450 - 1.82) < 1) by (split; split; val).
  assert (BV : 0.99 < opt_a (10000 / 5510 - 1.82) < 1 /\ -0.01 < opt_b (10000 / 5510 - 1.82) < 0) by (split; split; val).
  assert (BR : 0.88 < opt_a (10000 / 6580 - 1.82) < 0.92 /\ -0.4 < opt_b (10000 / 6580 - 1.82) < -0.1) by (split; split; val).
  assert (BI : 0.75 < opt_a (10000 / 8060 - 1.82) < 0.82 /\ -0.7 < opt_b (10000 / 8060 - 1.82) < -0.5) by (split; split; val).
  split; [apply M; nra|]. split; [apply M; nra|]. split; [apply M; nra|]. split; [apply M; nra|]. apply Rmult_lt_0_compat; [exact K|]. apply over; nra.
Qed.
(** The colour excess A(B) - A(V) of the Cardelli law is E(B-V) to ten per cent. *)
Theorem C123_colour_excess : forall E Rv e, 0 < E -> 1 <= Rv <= 6 -> newEBmV Cardelli E Rv = Ok e ->
  exists B V, Alambda cen e (BName "B") = Ok B /\ Alambda cen e (BName "V") = Ok V /\ 0.9 * E < B - V < 1.1 * E.
Proof.
  intros E Rv e HE HR H. pose proof (cardelli_V Rv) as Hv. pose proof (f_opt Rv 4450 ltac:(lra) ltac:(lra)) as HB.
  eexists. eexists. split; [apply (newEBmV_A Cardelli E Rv e _ "B" 4450 _ H Hv eq_refl HB)|]. split; [apply (newEBmV_A Cardelli E Rv e _ "V" 5510 _ H Hv eq_refl Hv)|].
  destruct opt_V as (Ha & Hb). assert (BB : 1.001 < opt_a (10000 / 4450 - 1.82) < 1.003 /\ 0.92 < opt_b (10000 / 4450 - 1.82) < 0.95) by (split; split; val).
  assert (Ha' : 0.999 < opt_a (xV - 1.82)) by (unfold xV; val).
  set (a := opt_a (xV - 1.82)) in *. set (b := opt_b (xV - 1.82)) in *. set (p := opt_a (10000 / 4450 - 1.82)) in *. set (q := opt_b (10000 / 4450 - 1.82)) in *. clearbody a b p q.
  replace (Rv * E / (a + b / Rv) * (p + q / Rv) - Rv * E / (a + b / Rv) * (a + b / Rv)) with (E * (Rv * ((p - a) * Rv + (q - b)) / (a * Rv + b))) by (field; split; nra).
  assert (D : 0 < a * Rv + b) by nra. assert (Z : 0.9 < Rv * ((p - a) * Rv + (q - b)) / (a * Rv + b) < 1.1).
  { split; [apply (Rmult_lt_reg_r (a * Rv + b)); [exact D|]|apply (Rmult_lt_reg_r (a * Rv + b)); [exact D|]]; unfold Rdiv; rewrite Rmult_assoc, Rinv_l, Rmult_1_r by lra; nra. }
  set (z := Rv * ((p - a) * Rv + (q - b)) / (a * Rv + b)) in *. clearbody z. nra.
Qed.
(** Refuted for the LMC class: E(B-V) = 1 with Rv = 3.1 gives A(B) - A(V) < 0.4. *)
Theorem C123_lmc_colour_refuted : exists e B V, newEBmV lmc 1 3.1 = Ok e /\ Alambda cen e (BName "B") = Ok B /\ Alambda cen e (BName "V") = Ok V /\ B - V < 0.4.
Proof.
  assert (HV : f lmc 3.1 5510 = Ok (-0.890 + 0.998 * (10000 / 5510) + 2.719 * ((10000 / 5510 * (10000 / 5510)) * / ((10000 / 5510 * (10000 / 5510) - 4.579 * 4.579) ^ 2 + (10000 / 5510 * (10000 / 5510)) * 0.934 * 0.934)) + 3.1)).
  { unfold f, lmc. cbv zeta. rewrite leb_false by lra. reflexivity. }
  assert (HB : f lmc 3.1 4450 = Ok (-0.890 + 0.998 * (10000 / 4450) + 2.719 * ((10000 / 4450 * (10000 / 4450)) * / ((10000 / 4450 * (10000 / 4450) - 4.579 * 4.579) ^ 2 + (10000 / 4450 * (10000 / 4450)) * 0.934 * 0.934)) + 3.1)).
  { unfold f, lmc. cbv zeta. rewrite leb_false by lra. reflexivity. }
  destruct (C123_ebv cen lmc 1 3.1) as (e & He & _); [unfold standard; auto|lra|]. exists e. eexists. eexists. split; [exact He|].
  split; [apply (newEBmV_A lmc 1 3.1 e _ "B" 4450 _ He HV eq_refl HB)|]. split; [apply (newEBmV_A lmc 1 3.1 e _ "V" 5510 _ He HV eq_refl HV)|]. lra.
Qed.
(** Refuted for the Calzetti class: with A0 = 1 the extinction is negative in the blue and positive in the red. *)
Theorem C123_calzetti_sign_refuted : exists b r, Alambda cen (newCalzetti 1) (BWl 4000) = Ok b /\ Alambda cen (newCalzetti 1) (BWl 7000) = Ok r /\ b < 0 < r.
Proof.
  rewrite !A_def. cbn [wl_of]. unfold call, newCalzetti. cbn [lw rv a0]. unfold f. destruct (Req_EM_T 4000 0); [lra|]. destruct (Req_EM_T 7000 0); [lra|].
  eexists. eexists. split; [reflexivity|]. split; [reflexivity|]. unfold horner. cbn [fold_left]. pose proof ln10_pos as Q. pose proof (Rinv_0_lt_compat _ Q) as Q'. unfold Rdiv. split; nra.
Qed.
(** ** The Fitzpatrick-Massa bump *)
Definition bump (C1 C2 C3 C4 x0 g Rv x : R) : R := match f (FM C1 C2 C3 C4 x0 g) Rv (10000 / x) with Ok v => v - (Rv + C1 + C2 * x) | _ => 0 end.
(** Between 0 and 5.9 per micron the law is Rv + C1 + C2 x plus a bump that is 0 <= bump <= C3/gamma^2, with the maximum at x0 and only there. *)
Theorem C123_bump : forall C1 C2 C3 C4 x0 g Rv x, 0 < C3 -> 0 < g -> 0 < x0 -> 0 < x < 5.9 ->
  0 <= bump C1 C2 C3 C4 x0 g Rv x <= C3 / (g * g) /\ (bump C1 C2 C3 C4 x0 g Rv x = C3 / (g * g) <-> x = x0).
Proof.
  intros C1 C2 C3 C4 x0 g Rv x H3 Hg H0 Hx. unfold bump, f. replace (10000 / (10000 / x)) with x by (field; lra). cbv zeta. rewrite leb_false by lra.
  replace (C1 + C2 * x + C3 * (x * x * / ((x * x - x0 * x0) ^ 2 + x * x * g * g)) + Rv - (Rv + C1 + C2 * x)) with (C3 * (x * x / ((x * x - x0 * x0) ^ 2 + x * x * g * g))) by (unfold Rdiv; ring).
  pose proof (pow2_ge_0 (x * x - x0 * x0)) as S2. set (d := x * x - x0 * x0) in *. assert (G : 0 < g * g) by (apply Rmult_lt_0_compat; auto). assert (X : 0 < x * x) by (apply Rmult_lt_0_compat; lra).
  assert (P : 0 < x * x * g * g). { rewrite Rmult_assoc. now apply Rmult_lt_0_compat. } assert (D : 0 < d ^ 2 + x * x * g * g) by lra.
  assert (E : C3 / (g * g) - C3 * (x * x / (d ^ 2 + x * x * g * g)) = C3 * d ^ 2 / (g * g * (d ^ 2 + x * x * g * g))) by (field; split; [lra|nra]).
  assert (K : 0 < g * g * (d ^ 2 + x * x * g * g)) by (now apply Rmult_lt_0_compat). split; [split|].
  - apply Rmult_le_pos; [lra|]. left. now apply Rdiv_lt_0_compat.
  - assert (0 <= C3 * d ^ 2 / (g * g * (d ^ 2 + x * x * g * g))); [|lra]. apply Rmult_le_pos; [apply Rmult_le_pos; lra|]. left. now apply Rinv_0_lt_compat.
  - split; intros H.
    + rewrite H in E. replace (C3 / (g * g) - C3 / (g * g)) with 0 in E by ring. assert (d ^ 2 = 0). { assert (C3 * d ^ 2 = 0); [|nra]. apply (Rmult_eq_reg_r (/ (g * g * (d ^ 2 + x * x * g * g)))); [|apply Rinv_neq_0_compat; lra]. unfold Rdiv in E. lra. }
      assert (Z : d = 0) by (apply Rsqr_0_uniq; unfold Rsqr; lra). unfold d in Z. nra.
    + assert (Z : d = 0) by (unfold d; rewrite H; ring). rewrite Z in *. field. split; lra.
Qed.
End Reddening.

(** ** Spectra *)
Section Spectra.
Variables c h ergperev : R.
Hypothesis Hc : 0 < c.
Hypothesis Hh : 0 < h.
Hypothesis He : 0 < ergperev.
Notation xtrans := (xtrans c h ergperev).
Notation xftrans := (xftrans c h ergperev).
Notation setUnit := (setUnit c h ergperev).
Lemma xf_scale u v x fl k : snd (xftrans u v (x, fl * k)) = snd (xftrans u v (x, fl)) * k.
Proof. unfold SpecModel.xftrans. destruct (ptype u), (ptype v); cbn [conv fst snd]; unfold Rdiv; ring. Qed.
Lemma mapr_nth (g : R -> @res R) (A : nat -> R) l : (forall i, (i < List.length l)%nat -> g (nth i l 0) = Ok (A i)) -> exists v, mapr g l = Ok v /\ List.length v = List.length l /\ forall i, (i < List.length l)%nat -> nth i v 0 = A i.
Proof.
  revert A. induction l as [|a l IH]; intros A H.
  - exists []. split; [reflexivity|]. split; [reflexivity|]. cbn [List.length]. intros i Hi. lia.
  - destruct (IH (fun i => A (S i))) as (v & E & L & N). { intros i Hi. apply (H (S i)). cbn [List.length]. lia. }
    exists (A O :: v). cbn [mapr]. pose proof (H O ltac:(cbn [List.length]; lia)) as H0. cbn [nth] in H0. rewrite H0, E. split; [reflexivity|]. split; [cbn [List.length]; now rewrite L|].
    intros [|i] Hi; [reflexivity|]. cbn [nth]. apply N. cbn [List.length] in Hi. lia.
Qed.
Lemma scaled_nth (l k : list R) i : List.length k = List.length l -> (i < List.length l)%nat -> nth i (map (fun p => fst p * snd p) (combine l k)) 0 = nth i l 0 * nth i k 0.
Proof.
  intros E Hi. rewrite (nth_indep _ 0 ((fun p : R * R => fst p * snd p) (0, 0))) by (rewrite map_length, combine_length; lia). rewrite (map_nth (fun p : R * R => fst p * snd p)). rewrite combine_nth by auto. reflexivity.
Qed.
(** Correcting a spectrum: unit and wavelengths (frequencies, energies) as before; flux and error at the i-th point
    multiplied by 10^(A/2.5), A the extinction at the wavelength of that point in angstrom.  The unit is any but THz and
    eV, no continuum operation is in force. *)
Theorem C123_spectrum : forall e s (A : nat -> R), good s -> scontop s = None -> sunit s <> UTHz -> sunit s <> UeV ->
  (forall i, (i < List.length (sx s))%nat -> call e (xtrans (sunit s) UAng (nth i (sx s) 0)) = Ok (A i)) ->
  exists s', correctSpectrum c h ergperev e s = (s', Ok tt) /\ sunit s' = sunit s /\ sz s' = sz s /\ scontop s' = None /\ List.length (sflux s') = List.length (sflux s) /\ List.length (serr s') = List.length (serr s) /\ List.length (sx s') = List.length (sx s) /\
    forall i, (i < List.length (sx s))%nat -> nth i (sx s') 0 = nth i (sx s) 0 /\ nth i (sflux s') 0 = nth i (sflux s) 0 * Rpower 10 (A i / 2.5) /\ nth i (serr s') 0 = nth i (serr s) 0 * Rpower 10 (A i / 2.5).
Proof.
  intros e s A G Ho N1 N2 HA. pose proof G as (Lf & Le & F & Cf). unfold correctSpectrum.
  destruct (setUnit_step c h ergperev Hc Hh He s "wavelength-angstrom" G Ho) as (s1 & r & E1 & X1 & G1 & O1 & U1 & _ & R1 & _). change (strToUnit "wavelength-angstrom") with (@Ok unit_ UAng) in U1. cbn iota in U1.
  rewrite U1 in X1. assert (Er : r = Ok tt).
  { destruct R1 as [R1|(R1 & ->)]; [exact R1|]. unfold SpecModel.setUnit in E1. change (strToUnit "wavelength-angstrom") with (@Ok unit_ UAng) in E1. cbn iota in E1. destruct (unit_eqb UAng (sunit s)); [congruence|]. unfold applyUnits in E1. rewrite Ho in E1. congruence. }
  subst r. rewrite E1. destruct X1 as (_ & Xz & _ & Lx & Xx & (Lf1 & Xf) & (Le1 & Xe) & _). pose proof G1 as (Gf1 & Ge1 & F1 & Cf1).
  destruct (mapr_nth (call e) A (sx s1)) as (v & Ev & Lv & Nv). { intros i Hi. rewrite Xx by lia. apply HA. lia. }
  rewrite Ev. set (k := map (fun v : R => pow10 (v / 2.5)) v). assert (Lk : List.length k = List.length (sx s1)) by (unfold k; now rewrite map_length).
  assert (Nk : forall i, (i < List.length (sx s1))%nat -> nth i k 0 = pow10 (A i / 2.5)).
  { intros i Hi. unfold k. rewrite (nth_indep _ 0 (pow10 (0 / 2.5))) by (rewrite map_length; lia). rewrite (map_nth (fun v : R => pow10 (v / 2.5))). now rewrite Nv. }
  set (s2 := Spec (sx s1) _ _ _ _ _ _). assert (G2 : good s2).
  { unfold good, s2. cbn [sx sflux serr]. rewrite !map_length, !combine_length, Gf1, Ge1, Lk, !Nat.min_id. split; [reflexivity|]. split; [reflexivity|]. split; [exact F1|]. exact Cf1. }
  assert (Eo : strToUnit (unit_name (sunit s)) = Ok (sunit s)) by (destruct (sunit s); try reflexivity; contradiction).
  destruct (setUnit_step c h ergperev Hc Hh He s2 (unit_name (sunit s)) G2 O1) as (s3 & r & E3 & X3 & G3 & O3 & U3 & _ & R3 & _). rewrite Eo in U3. rewrite U3 in X3.
  assert (Er : r = Ok tt).
  { destruct R3 as [R3|(R3 & ->)]; [exact R3|]. unfold SpecModel.setUnit in E3. rewrite Eo in E3. destruct (unit_eqb (sunit s) (sunit s2)); [congruence|]. unfold applyUnits in E3. change (scontop s2) with (scontop s1) in E3. rewrite O1 in E3. congruence. }
  subst r. exists s3. destruct X3 as (_ & Yz & _ & Ly & Yx & (Lf3 & Yf) & (Le3 & Ye) & _). change (sunit s2) with (sunit s1) in *. rewrite U1 in *.
  change (sx s2) with (sx s1) in *. change (sz s2) with (sz s1) in Yz. assert (L2f : List.length (sflux s2) = List.length (sx s1)) by (apply G2). assert (L2e : List.length (serr s2) = List.length (sx s1)) by (apply G2).
  split; [exact E3|]. split; [exact U3|]. split; [congruence|]. split; [exact O3|]. split; [congruence|]. split; [congruence|]. split; [congruence|]. intros i Hi.
  assert (Hx : nth i (sx s) 0 <> 0). { rewrite List.Forall_forall in F. apply F. now apply nth_In. }
  assert (Back : forall fl, xftrans UAng (sunit s) (xftrans (sunit s) UAng (nth i (sx s) 0, fl)) = (nth i (sx s) 0, fl)).
  { intros fl. rewrite (xf_compose c h ergperev Hc Hh He) by exact Hx. now apply xf_id. }
  assert (Point : forall fl, (xtrans (sunit s) UAng (nth i (sx s) 0), snd (xftrans (sunit s) UAng (nth i (sx s) 0, fl))) = xftrans (sunit s) UAng (nth i (sx s) 0, fl)).
  { intros fl. rewrite <- (xf_fst c h ergperev Hc Hh He _ _ _ fl Hx). symmetry. apply surjective_pairing. }
  split; [|split].
  - rewrite Yx by lia. rewrite Xx by exact Hi. rewrite <- (xf_fst c h ergperev Hc Hh He _ _ _ 0) by (now apply (xtrans_nz c h ergperev Hc Hh He)).
    pose proof (Back 0) as Bk. rewrite <- (Point 0) in Bk. replace (snd (xftrans (sunit s) UAng (nth i (sx s) 0, 0))) with 0 in Bk.
    + now rewrite Bk.
    + pose proof (xf_scale (sunit s) UAng (nth i (sx s) 0) 0 0) as Z. rewrite !Rmult_0_r in Z. symmetry. exact Z.
  - rewrite Yf by lia. unfold s2. cbn [sflux]. rewrite scaled_nth by lia. rewrite xf_scale, Xx, Xf by lia. rewrite Point, Back. cbn [snd]. rewrite Nk by lia. reflexivity.
  - rewrite Ye by lia. unfold s2. cbn [serr]. rewrite scaled_nth by lia. rewrite xf_scale, Xx, Xe by lia. rewrite Point, Back. cbn [snd]. rewrite Nk by lia. reflexivity.
Qed.
(** Refuted: the continuum of a corrected spectrum (in angstrom) is not corrected. *)
Theorem C123_continuum_refuted : forall e s l a, sunit s = UAng -> scont s = Some (CArr l) -> mapr (call e) (sx s) = Ok a -> scont (fst (correctSpectrum c h ergperev e s)) = Some (CArr l).
Proof.
  intros e s l a Hu Hl Ha. unfold correctSpectrum, SpecModel.setUnit. change (strToUnit "wavelength-angstrom") with (@Ok unit_ UAng). cbn iota. rewrite Hu. change (unit_eqb UAng UAng) with true. cbn iota. rewrite Ha. change (strToUnit (unit_name UAng)) with (@Ok unit_ UAng). cbn iota. cbn [sunit]. rewrite Hu. change (unit_eqb UAng UAng) with true. exact Hl.
Qed.
(** Refuted: in THz or eV the correction raises ValueError with the spectrum left corrected and in angstrom. *)
Theorem C123_spectrum_unit_refuted : forall e s, sunit s = UTHz \/ sunit s = UeV -> scontop s = None -> forall s' r, correctSpectrum c h ergperev e s = (s', r) -> (forall a, mapr (call e) (sx (fst (setUnit s "wavelength-angstrom"))) = Ok a -> r = Raise ValueError) /\ sunit s' = UAng.
Proof.
  intros e s Hu Ho s' r H. unfold correctSpectrum, SpecModel.setUnit in H. change (strToUnit "wavelength-angstrom") with (@Ok unit_ UAng) in H. cbn iota in H. replace (unit_eqb UAng (sunit s)) with false in H by (destruct Hu as [-> | ->]; reflexivity).
  unfold SpecModel.setUnit. change (strToUnit "wavelength-angstrom") with (@Ok unit_ UAng). cbn iota. replace (unit_eqb UAng (sunit s)) with false by (destruct Hu as [-> | ->]; reflexivity).
  destruct (applyUnits c h ergperev s UAng) as (s1, r1) eqn:E1. assert (E : r1 = Ok tt /\ sunit s1 = UAng). { unfold applyUnits in E1. rewrite Ho in E1. injection E1 as <- <-. split; reflexivity. }
  destruct E as (-> & U1). cbn [fst]. destruct (mapr (call e) (sx s1)) as [a|x|] eqn:Ea.
  - replace (strToUnit (unit_name (sunit s))) with (@Raise unit_ ValueError) in H by (destruct Hu as [-> | ->]; reflexivity). injection H as <- <-. split; [reflexivity|exact U1].
  - injection H as <- <-. split; [discriminate|exact U1].
  - injection H as <- <-. split; [discriminate|exact U1].
Qed.
(** Refuted: a wavelength outside the range of the law leaves the spectrum in angstrom. *)
Theorem C123_spectrum_failure_refuted : forall e s x, good s -> scontop s = None -> mapr (call e) (sx (fst (setUnit s "wavelength-angstrom"))) = Raise x ->
  correctSpectrum c h ergperev e s = (fst (setUnit s "wavelength-angstrom"), Raise x) /\ sunit (fst (setUnit s "wavelength-angstrom")) = UAng.
Proof.
  intros e s x G Ho H. destruct (setUnit_step c h ergperev Hc Hh He s "wavelength-angstrom" G Ho) as (s1 & r & E1 & X1 & G1 & O1 & U1 & _ & R1 & _). change (strToUnit "wavelength-angstrom") with (@Ok unit_ UAng) in U1. cbn iota in U1.
  assert (Er : r = Ok tt).
  { destruct R1 as [R1|(R1 & ->)]; [exact R1|]. unfold SpecModel.setUnit in E1. change (strToUnit "wavelength-angstrom") with (@Ok unit_ UAng) in E1. cbn iota in E1. destruct (unit_eqb UAng (sunit s)); [congruence|]. unfold applyUnits in E1. rewrite Ho in E1. congruence. }
  subst r. unfold correctSpectrum. rewrite E1 in *. cbn [fst] in *. rewrite H. split; [reflexivity|exact U1].
Qed.
End Spectra.

(** ** The deprecated function *)
(** extinction_correction for the Milky Way agrees with a Cardelli object of A0 = Rv E(B-V): A(lambda) without a flux,
    the corrected flux with one. *)
Theorem C123_deprecated : forall cen b E Rv F, 0 < F ->
  extinction_correction cen None b E Rv MW = Alambda cen (Ext Cardelli (Rv * E) Rv) b /\
  (forall w, b = BWl w -> extinction_correction cen (Some F) b E Rv MW = correctFlux (Ext Cardelli (Rv * E) Rv) F b).
Proof.
  intros cen b E Rv F HF. split.
  - unfold extinction_correction. rewrite A_def. destruct (wl_of cen b) as [w|x|]; auto. unfold call. cbn [lw rv a0]. destruct (f Cardelli Rv w) as [v|x|]; auto. cbv zeta. f_equal. ring.
  - intros w ->. unfold extinction_correction, correctFlux. cbn [wl_of]. unfold call. cbn [lw rv a0]. destruct (f Cardelli Rv w) as [v|x|]; auto. cbv zeta. f_equal.
    replace ((-2.5 * log10 F - v * Rv * E) / -2.5) with (log10 F + Rv * E * v / 2.5) by lra. rewrite pow10_plus. now rewrite pow10_log10.
Qed.
(** Refuted: without a flux the LMC and SMC forms raise, although the docstring promises A(lambda); so do band names. *)
Theorem C123_deprecated_refuted : forall cen E Rv t, t = LMCt \/ t = SMCt -> 1 <= Rv -> extinction_correction cen None (BName "Ha") E Rv t = Raise TypeError /\ forall fl, extinction_correction cen fl (BName "V") E Rv t = Raise TypeError.
Proof.
  intros cen E Rv t Ht HR. assert (K : forall l, l = lmc \/ l = smc -> exists e, newEBmV l E Rv = Ok e /\ lw e = l).
  { intros l Hl. destruct (C123_ebv cen l E Rv) as (e & H1 & H2 & _); [unfold standard; tauto|exact HR|eauto]. }
  assert (M : exists l, (l = lmc \/ l = smc) /\ forall fl b, extinction_correction cen fl b E Rv t = match newEBmV l E Rv with Ok e => match fl with Some v => correctFlux e v b | None => match correctFlux e 1 b with Ok _ => Raise TypeError | x => x end end | Raise x => Raise x | OutOfFuel => OutOfFuel end).
  { destruct Ht as [-> | ->]; [exists lmc|exists smc]; split; auto. }
  destruct M as (l & Hl & M). destruct (K l Hl) as (e & En & El). split; [|intros fl]; rewrite M, En.
  - unfold correctFlux. change (line_wl "Ha") with (Some 6562.82). cbn iota. unfold call. rewrite El. destruct Hl as [-> | ->]; reflexivity.
  - unfold correctFlux. change (line_wl "V") with (@None R). cbn iota. rewrite El. destruct Hl as [-> | ->]; destruct fl; reflexivity.
Qed.
(** Refuted: the constructor rejects every callable law and accepts what cannot be called. *)
Theorem C123_constructor_refuted : (forall g A0, newExtinction (FCallable g) A0 = Raise ValueError) /\ (forall A0, exists e, newExtinction FOther A0 = Ok e /\ forall w, call e w = Raise TypeError).
Proof. split; [reflexivity|]. intros A0. eexists. split; [reflexivity|]. reflexivity. Qed.

(** ** Examples *)
Example cardelli_object : exists e, newEBmV Cardelli 0.5 3.1 = Ok e /\ Alambda (fun _ => Raise KeyError) e (BName "V") = Ok (3.1 * 0.5).
Proof. destruct (C123_ebv (fun _ => Raise KeyError) Cardelli 0.5 3.1) as (e & H & _ & _ & _ & A); [unfold standard; auto|lra|]. eauto. Qed.
Example hab : exists e n1 n2 G1 G2, computeA0 (Ext Cardelli 1 3.1) [6 / 2] (EName "Hab") (fun l => hd 0 l) = (e, Ok (a0 e)) /\ letters "Hab" = Some (n1, n2) /\ correctFlux e 6 (BName n1) = Ok G1 /\ correctFlux e 2 (BName n2) = Ok G2 /\ G1 / G2 = 2.86.
Proof.
  destruct (C123_balmer (Ext Cardelli 1 3.1) "Hab" 2.86 6562.82 4861.33 6 2 eq_refl ltac:(lra) ltac:(lra)) with (filt := fun l : list R => hd 0 l) as (e & n1 & n2 & G1 & G2 & H & _ & _ & Hn & C1 & C2 & E).
  - cbn [lw rv]. rewrite (f_opt 3.1 6562.82) by lra. rewrite (f_opt 3.1 4861.33) by lra. eexists. eexists. split; [reflexivity|]. split; [reflexivity|]. unfold opt_a, opt_b. lra.
  - reflexivity.
  - exists e, n1, n2, G1, G2. auto.
Qed.
Example a_spectrum : exists s, correctSpectrum 3 1 1 (Ext lmc 1 3.1) (Spec [1; 2] [5; 6] [1; 1] UMicron None None 0) = (s, Ok tt) /\ sunit s = UMicron /\ List.length (sflux s) = 2%nat.
Proof.
  destruct (C123_spectrum 3 1 1 ltac:(lra) ltac:(lra) ltac:(lra) (Ext lmc 1 3.1) (Spec [1; 2] [5; 6] [1; 1] UMicron None None 0) (fun i => match f lmc 3.1 (xtrans 3 1 1 UMicron UAng (nth i [1; 2] 0)) with Ok v => 1 * v | _ => 0 end)) as (s & H & U & _ & _ & L & _).
  - unfold good. cbn [sx sflux serr]. split; [reflexivity|]. split; [reflexivity|]. split; [repeat constructor; lra|]. exact Logic.I.
  - reflexivity.
  - discriminate.
  - discriminate.
  - intros i _. cbn [sx sunit]. unfold call, f, lmc. cbn [lw rv a0]. reflexivity.
  - exists s. auto.
Qed.
