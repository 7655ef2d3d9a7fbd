(** * ExtProof: interstellar extinction (C123) *)
From Coq Require Import Reals List Bool String Ascii Lra Lia Psatz.
From Verif Require Import PyBase SpecModel ExtModel.
Import ListNotations.
Open Scope R_scope.

Lemma leb_true a b : a <= b -> leb a b = true.
Proof. intros H. unfold leb. destruct (Rle_dec a b); [reflexivity|contradiction]. Qed.
Lemma leb_false a b : b < a -> leb a b = false.
Proof. intros H. unfold leb. destruct (Rle_dec a b); [lra|reflexivity]. Qed.
Lemma ltb_true a b : a < b -> ltb a b = true.
Proof. intros H. unfold ltb. destruct (Rlt_dec a b); [reflexivity|contradiction]. Qed.
Lemma ltb_false a b : b <= a -> ltb a b = false.
Proof. intros H. unfold ltb. destruct (Rlt_dec a b); [lra|reflexivity]. Qed.

(** ** The laws *)
(** The optical polynomials in the wave number, [y] = 1/lambda[micron] - 1.82, as the article of Cardelli, Clayton and
    Mathis prints them. *)
Definition opt_a (y : R) : R := 1 + 0.17699 * y - 0.50447 * y ^ 2 - 0.02427 * y ^ 3 + 0.72085 * y ^ 4 + 0.01979 * y ^ 5 - 0.7753 * y ^ 6 + 0.32999 * y ^ 7.
Definition opt_b (y : R) : R := 1.41338 * y + 2.28305 * y ^ 2 + 1.07233 * y ^ 3 - 5.38434 * y ^ 4 - 0.62251 * y ^ 5 + 5.3026 * y ^ 6 - 2.09002 * y ^ 7.
Lemma ccm_optical x : 1.1 <= x < 3.3 -> ccm_a x = opt_a (x - 1.82) /\ ccm_b x = opt_b (x - 1.82).
Proof.
  intros H. unfold ccm_a, ccm_b. rewrite (leb_false 3.3 x), (leb_false 5.9 x), (leb_false 8 x), (leb_true 1.1 x), (leb_true x 3.3) by lra. cbn [andb].
  unfold opt_a, opt_b, horner. cbn [fold_left]. split; lra.
Qed.
(** every branch of the published law; the bounds belong to the branch of the shorter wavelengths *)
Theorem C123_cardelli_law : forall x,
  (0.3 <= x < 1.1 -> ccm_a x = 0.574 * Rpower x 1.61 /\ ccm_b x = - 0.527 * Rpower x 1.61) /\
  (1.1 <= x < 3.3 -> ccm_a x = opt_a (x - 1.82) /\ ccm_b x = opt_b (x - 1.82)) /\
  (3.3 <= x < 5.9 -> ccm_a x = 1.752 - 0.316 * x - 0.104 / ((x - 4.67) ^ 2 + 0.341) /\ ccm_b x = - 3.090 + 1.825 * x + 1.206 / ((x - 4.62) ^ 2 + 0.263)) /\
  (5.9 <= x < 8 -> ccm_a x = 1.752 - 0.316 * x - 0.104 / ((x - 4.67) ^ 2 + 0.341) - 0.04473 * (x - 5.9) ^ 2 - 0.009779 * (x - 5.9) ^ 3 /\
     ccm_b x = - 3.090 + 1.825 * x + 1.206 / ((x - 4.62) ^ 2 + 0.263) - 0.2130 * (x - 5.9) ^ 2 - 0.1207 * (x - 5.9) ^ 3) /\
  (8 <= x <= 10 -> ccm_a x = - 1.073 - 0.628 * (x - 8) + 0.137 * (x - 8) ^ 2 - 0.070 * (x - 8) ^ 3 /\ ccm_b x = 13.670 + 4.257 * (x - 8) - 0.420 * (x - 8) ^ 2 + 0.374 * (x - 8) ^ 3).
Proof.
  intros x. split; [|split; [exact (ccm_optical x)|split; [|split]]]; intros H; unfold ccm_a, ccm_b.
  - rewrite (leb_false 1.1 x), (leb_false 3.3 x), (leb_false 5.9 x), (leb_false 8 x), (leb_true 0.3 x), (leb_true x 1.1) by lra. cbn [andb]. split; lra.
  - rewrite (leb_false 5.9 x), (leb_false 8 x), (leb_true 3.3 x), (leb_true x 5.9) by lra. cbn [andb]. split; lra.
  - rewrite (leb_false 8 x), (leb_true 5.9 x), (leb_true x 8) by lra. cbn [andb]. split; lra.
  - rewrite (leb_true 8 x), (leb_true x 10) by lra. cbn [andb]. unfold horner. cbn [fold_left]. split; lra.
Qed.
(** Wavelengths outside 0.1 to 10/3 micron are rejected, all others accepted. *)
Theorem C123_cardelli_range : forall Rv lam, 0 < lam ->
  (1000 <= lam <= 100000 / 3 -> exists v, f Cardelli Rv lam = Ok v) /\ (lam < 1000 \/ 100000 / 3 < lam -> f Cardelli Rv lam = Raise ValueError).
Proof.
  intros Rv lam Hl. unfold f, ccm_range. assert (E : lam * (10000 / lam) = 10000) by (field; lra). set (x := 10000 / lam) in *.
  split; intros H.
  - rewrite ltb_false by nra. rewrite ltb_false by nra. cbn [orb negb]. eauto.
  - destruct H as [H|H].
    + rewrite (ltb_true 10 x) by nra. now rewrite orb_true_r.
    + rewrite (ltb_true x 0.3) by nra. reflexivity.
Qed.
(** At 1/1.82 micron the Cardelli law is 1 whatever Rv. *)
Theorem C123_cardelli_reference : forall Rv, f Cardelli Rv (10000 / 1.82) = Ok 1.
Proof.
  intros Rv. unfold f. cbv zeta. replace (10000 / (10000 / 1.82)) with 1.82 by lra. unfold ccm_range. rewrite ltb_false, ltb_false by lra. cbn [orb negb].
  destruct (ccm_optical 1.82) as (-> & ->); [lra|]. unfold opt_a, opt_b. replace (1.82 - 1.82) with 0 by ring. f_equal. unfold Rdiv. ring.
Qed.
Definition standard (l : law) : Prop := l = lmc \/ l = smc \/ l = Cardelli.
Definition xV : R := 10000 / 5510.
Lemma cardelli_V Rv : f Cardelli Rv 5510 = Ok (opt_a (xV - 1.82) + opt_b (xV - 1.82) / Rv).
Proof. unfold f. cbv zeta. unfold ccm_range. rewrite ltb_false, ltb_false by lra. cbn [orb negb]. destruct (ccm_optical (10000 / 5510)) as (-> & ->); [lra|]. reflexivity. Qed.
Lemma opt_V : 0.99 < opt_a (xV - 1.82) < 1 /\ -0.01 < opt_b (xV - 1.82) < 0.
Proof. unfold opt_a, opt_b, xV. split; split; lra. Qed.
Lemma div_bound a b r : 1 <= r -> -b <= a <= b -> -b <= a / r <= b.
Proof.
  intros Hr H. assert (E : a = (a / r) * r) by (field; lra). set (q := a / r) in *. nra.
Qed.
(** the law of each of the three classes is positive at the V band *)
Lemma f_V_pos l Rv : standard l -> 1 <= Rv -> exists v, f l Rv 5510 = Ok v /\ 0 < v.
Proof.
  intros [-> | [-> | ->]] HR.
  - unfold f, lmc. cbv zeta. rewrite leb_false by lra. eexists. split; [reflexivity|]. lra.
  - unfold f, smc. cbv zeta. rewrite leb_false by lra. eexists. split; [reflexivity|]. lra.
  - rewrite cardelli_V. eexists. split; [reflexivity|]. destruct opt_V as (Ha & Hb). pose proof (div_bound (opt_b (xV - 1.82)) 0.01 Rv HR ltac:(lra)). lra.
Qed.

(** ** E(B-V) *)
Section WithBands.
Variable cen : string -> @res R.
Lemma A_def e b : Alambda cen e b = match wl_of cen b with Ok w => call e w | Raise x => Raise x | OutOfFuel => OutOfFuel end.
Proof.
  unfold Alambda, correctPhotometry. destruct (wl_of cen b) as [w|x|]; cbn [neg_res]; auto. destruct (call e w) as [a|x|]; cbn [neg_res]; auto. f_equal. ring.
Qed.
Lemma set_get e v E : f (lw e) (rv e) 5510 = Ok v -> v <> 0 -> rv e <> 0 ->
  exists e', setEBmV e E = (e', Ok tt) /\ lw e' = lw e /\ rv e' = rv e /\ getEBmV e' = Ok E /\ Alambda cen e' (BName "V") = Ok (rv e * E).
Proof.
  intros Hv Nv Nr. unfold setEBmV. rewrite Hv. eexists. split; [reflexivity|]. split; [reflexivity|]. split; [reflexivity|]. unfold getEBmV. rewrite A_def.
  cbn [lw rv a0 wl_of bandwl]. change (bandwl cen "V") with (@Ok R 5510). cbn iota beta. unfold call. cbn [lw rv a0]. rewrite Hv. split; f_equal; field; auto.
Qed.
(** Given E(B-V) and Rv >= 1, each of the three classes reports that E(B-V) and has A(V) = Rv E(B-V). *)
Theorem C123_ebv : forall l E Rv, standard l -> 1 <= Rv ->
  exists e, newEBmV l E Rv = Ok e /\ lw e = l /\ rv e = Rv /\ getEBmV e = Ok E /\ Alambda cen e (BName "V") = Ok (Rv * E).
Proof.
  intros l E Rv Hl HR. destruct (f_V_pos l Rv Hl HR) as (v & Hv & Pv). destruct (set_get (Ext l 1 Rv) v E Hv) as (e & He & H); [lra|cbn [rv]; lra|]. cbn [lw rv] in H.
  exists e. split; [|exact H]. unfold newEBmV. now rewrite He.
Qed.
(** Setting E(B-V) later has the same effect, on an object of any history. *)
Theorem C123_ebv_set : forall e E, standard (lw e) -> 1 <= rv e ->
  exists e', setEBmV e E = (e', Ok tt) /\ lw e' = lw e /\ rv e' = rv e /\ getEBmV e' = Ok E /\ Alambda cen e' (BName "V") = Ok (rv e * E).
Proof. intros e E Hl HR. destruct (f_V_pos _ _ Hl HR) as (v & Hv & Pv). apply (set_get e v E Hv); lra. Qed.
(** The extinction is proportional to E(B-V), in every band and at every wavelength. *)
Definition times (k : R) (r : @res R) : @res R := match r with Ok v => Ok (k * v) | x => x end.
Theorem C123_linear : forall l E k Rv e1 e2 b, newEBmV l E Rv = Ok e1 -> newEBmV l (k * E) Rv = Ok e2 -> Alambda cen e2 b = times k (Alambda cen e1 b).
Proof.
  intros l E k Rv e1 e2 b H1 H2. unfold newEBmV, setEBmV in H1, H2. cbn [lw rv] in H1, H2. destruct (f l Rv 5510) as [v|x|] eqn:Ev; try discriminate. inversion H1; subst e1. inversion H2; subst e2.
  rewrite !A_def. destruct (wl_of cen b) as [w|x|]; cbn [times]; auto. unfold call. cbn [lw rv a0]. destruct (f l Rv w) as [u|x|]; cbn [times]; auto. f_equal. unfold Rdiv. ring.
Qed.
(** Refuted: assigning Rv keeps A0, not E(B-V); after it the object reports another E(B-V). *)
Theorem C123_rv_refuted : exists e, newEBmV Cardelli 1 3.1 = Ok e /\ getEBmV e = Ok 1 /\ forall x, getEBmV (Ext (lw e) (a0 e) 6.2) = Ok x -> x < 0.6.
Proof.
  destruct (C123_ebv Cardelli 1 3.1) as (e & He & Hl & Hr & Hg & _); [unfold standard; auto|lra|]. exists e. split; [exact He|]. split; [exact Hg|].
  intros x Hx. unfold getEBmV in Hx, Hg. cbn [lw rv a0] in Hx. rewrite Hl, Hr in *. rewrite cardelli_V in Hx, Hg. destruct opt_V as (Ha & Hb). set (A := opt_a _) in *. set (B := opt_b _) in *. clearbody A B.
  injection Hg as Hg. injection Hx as Hx. assert (Hz : a0 e * (A + B / 3.1) = 3.1) by lra. assert (P : 0 < A + B / 3.1) by lra. assert (Q : 0 < a0 e) by nra.
  subst x. assert (U : a0 e < 3.3) by nra. assert (a0 e * (A + B / 6.2) < 3.3 * 1) by nra. lra.
Qed.

(** ** Photometry *)
(** Correcting a magnitude dimmed by A(lambda) gives back the magnitude: for names, for wavelengths, for every law. *)
Theorem C123_magnitudes : forall e b A m, Alambda cen e b = Ok A -> correctPhotometry cen e (m + A) b = Ok m.
Proof.
  intros e b A m H. rewrite A_def in H. unfold correctPhotometry. destruct (wl_of cen b) as [w|x|]; try discriminate. rewrite H. f_equal. ring.
Qed.
(** the same failure as A(lambda) otherwise, and nothing else *)
Theorem C123_magnitudes_failure : forall e b m x, correctPhotometry cen e m b = Raise x <-> Alambda cen e b = Raise x.
Proof.
  intros e b m x. rewrite A_def. unfold correctPhotometry. destruct (wl_of cen b) as [w|y|]; try tauto. destruct (call e w) as [a|y|]; split; intros H; try discriminate; auto.
Qed.
(** A(lambda) of a sequence: element by element, in the order given *)
Theorem C123_sequences : forall e l v, Alambdas cen e l = Ok v <-> List.Forall2 (fun b a => Alambda cen e b = Ok a) l v.
Proof.
  intros e l. unfold Alambdas. induction l as [|b l IH]; intros v.
  - cbn [mapr map]. split; intros H; [injection H as <-; constructor|]. inversion H. reflexivity.
  - cbn [mapr]. destruct (correctPhotometry cen e 0 b) as [a|x|] eqn:Ea; cbn [neg_res].
    + destruct (mapr (correctPhotometry cen e 0) l) as [t|x|] eqn:Et.
      * cbn [map]. split; intros H.
        -- injection H as <-. constructor; [unfold Alambda; now rewrite Ea|]. now apply IH.
        -- inversion H as [|? ? ? r Hb Hr]; subst. apply IH in Hr. injection Hr as <-. unfold Alambda in Hb. rewrite Ea in Hb. cbn [neg_res] in Hb. now injection Hb as <-.
      * split; intros H; [discriminate|]. inversion H as [|? ? ? r Hb Hr]; subst. apply IH in Hr. discriminate.
      * split; intros H; [discriminate|]. inversion H as [|? ? ? r Hb Hr]; subst. apply IH in Hr. discriminate.
    + split; intros H; [discriminate|]. inversion H as [|? ? ? r Hb Hr]; subst. unfold Alambda in Hb. rewrite Ea in Hb. discriminate.
    + split; intros H; [discriminate|]. inversion H as [|? ? ? r Hb Hr]; subst. unfold Alambda in Hb. rewrite Ea in Hb. discriminate.
Qed.
(** A colour is corrected like the difference of its two magnitudes, for two names or two wavelengths. *)
Definition same_kind (b1 b2 : band) : Prop := match b1, b2 with BName _, BName _ | BWl _, BWl _ => True | _, _ => False end.
Lemma pair_color e b1 b2 color A1 A2 : same_kind b1 b2 -> Alambda cen e b1 = Ok A1 -> Alambda cen e b2 = Ok A2 -> correctColor cen e color (CPair b1 b2) = Ok (color - A1 + A2).
Proof.
  intros K H1 H2. rewrite A_def in H1, H2. destruct b1 as [n1|w1], b2 as [n2|w2]; try destruct K; cbn [wl_of] in H1, H2; unfold correctColor.
  - destruct (bandwl cen n1) as [u1|x|]; try discriminate. destruct (bandwl cen n2) as [u2|x|]; try discriminate. now rewrite H1, H2.
  - now rewrite H1, H2.
Qed.
Theorem C123_colors : forall e b1 b2 m1 m2 c1 c2, same_kind b1 b2 -> correctPhotometry cen e m1 b1 = Ok c1 -> correctPhotometry cen e m2 b2 = Ok c2 ->
  correctColor cen e (m1 - m2) (CPair b1 b2) = Ok (c1 - c2).
Proof.
  intros e b1 b2 m1 m2 c1 c2 K H1 H2. unfold correctPhotometry in H1, H2.
  destruct (wl_of cen b1) as [w1|x|] eqn:E1; try discriminate. destruct (wl_of cen b2) as [w2|x|] eqn:E2; try discriminate.
  destruct (call e w1) as [A1|x|] eqn:C1; try discriminate. destruct (call e w2) as [A2|x|] eqn:C2; try discriminate.
  rewrite (pair_color e b1 b2 _ A1 A2 K); [|rewrite A_def, E1; exact C1|rewrite A_def, E2; exact C2]. injection H1 as <-. injection H2 as <-. f_equal. ring.
Qed.
(** the text forms 'n1,n2' and 'E(n1,n2)', for names without comma or parentheses *)
Fixpoint no_char (a : ascii) (s : string) : Prop := match s with EmptyString => True | String b r => b <> a /\ no_char a r end.
Definition plain (s : string) : Prop := no_char "," s /\ no_char "(" s /\ no_char ")" s.
Lemma dropClose_id s : no_char ")" s -> forall t, dropClose (s ++ t) = (s ++ dropClose t)%string.
Proof. induction s as [|a s IH]; intros H t; cbn [append dropClose]; auto. destruct H as (Ha & H). destruct (Ascii.eqb_spec a ")"); [contradiction|]. now rewrite IH. Qed.
Lemma dropE_step a s : no_char "(" s -> forall t, (exists b r, t = String b r /\ b <> "("%char) \/ t = EmptyString -> dropE (String a (s ++ t)) = String a (dropE (s ++ t)).
Proof.
  intros H t Ht. assert (N : forall r, (s ++ t)%string <> String "(" r).
  { intros r. destruct s as [|b s]; cbn [append].
    - destruct Ht as [(b & r' & -> & Hb)| ->]; [|discriminate]. intros E. injection E as E _. contradiction.
    - destruct H as (Hb & _). intros E. injection E as E _. contradiction. }
  destruct (s ++ t)%string as [|b r] eqn:E.
  - destruct a as [[] [] [] [] [] [] [] []]; reflexivity.
  - assert (Hb : b <> "("%char) by (intros ->; now apply (N r)).
    clear - Hb. cbn [dropE]. destruct a as [[] [] [] [] [] [] [] []]; try reflexivity. destruct b as [[] [] [] [] [] [] [] []]; try reflexivity. now destruct Hb.
Qed.
Lemma dropE_id s : no_char "(" s -> forall t, (exists b r, t = String b r /\ b <> "("%char) \/ t = EmptyString -> dropE (s ++ t) = (s ++ dropE t)%string.
Proof.
  induction s as [|a s IH]; intros H t Ht; [reflexivity|]. destruct H as (Ha & H). cbn [append]. rewrite dropE_step by auto. now rewrite IH.
Qed.
Lemma append_assoc' s t u : ((s ++ t) ++ u = s ++ (t ++ u))%string.
Proof. induction s as [|a s IH]; cbn [append]; auto. now rewrite IH. Qed.
Lemma append_nil_r' s : (s ++ "")%string = s.
Proof. induction s as [|a s IH]; cbn [append]; auto. now rewrite IH. Qed.
Lemma split_name s : no_char "," s -> forall cur t, splitComma cur (s ++ t) = splitComma (cur ++ s) t.
Proof.
  induction s as [|a s IH]; intros H cur t; cbn [append splitComma]; [now rewrite append_nil_r'|]. destruct H as (Ha & H). destruct (Ascii.eqb_spec a ","); [contradiction|].
  rewrite IH by auto. now rewrite append_assoc'.
Qed.
Lemma split_two n1 n2 : no_char "," n1 -> no_char "," n2 -> splitComma "" (n1 ++ String "," n2) = [n1; n2].
Proof.
  intros H1 H2. rewrite split_name by auto. cbn [append]. cbn [splitComma]. change (("," =? ",")%char) with true. cbn iota. f_equal.
  rewrite <- (append_nil_r' n2) at 1. rewrite split_name by auto. reflexivity.
Qed.
Lemma dropE_comma n : dropE (String "," n) = String "," (dropE n).
Proof. reflexivity. Qed.
Lemma clean_plain n1 n2 : plain n1 -> plain n2 -> dropClose (dropE (n1 ++ String "," n2)) = (n1 ++ String "," n2)%string.
Proof.
  intros (C1 & P1 & Q1) (C2 & P2 & Q2). rewrite dropE_id by (first [assumption | left; exists ","%char, n2; (split; [reflexivity|discriminate])]). rewrite dropE_comma.
  rewrite <- (append_nil_r' n2) at 1. rewrite dropE_id by auto. rewrite dropClose_id by auto. cbn [dropE]. change (dropClose (String "," (n2 ++ ""))) with (String "," (dropClose (n2 ++ ""))). rewrite dropClose_id by auto.
  cbn [dropClose]. now rewrite append_nil_r'.
Qed.
Theorem C123_color_text : forall e color n1 n2, plain n1 -> plain n2 ->
  correctColor cen e color (CText (n1 ++ "," ++ n2)) = correctColor cen e color (CPair (BName n1) (BName n2)) /\
  correctColor cen e color (CText ("E(" ++ n1 ++ "," ++ n2 ++ ")")) = correctColor cen e color (CPair (BName n1) (BName n2)).
Proof.
  intros e color n1 n2 P1 P2. pose proof P1 as (C1 & O1 & Q1). pose proof P2 as (C2 & O2 & Q2). split; unfold correctColor.
  - cbn [append]. change ((n1 ++ String "," n2)%string) with ((n1 ++ String "," n2)%string). rewrite clean_plain by auto. now rewrite split_two.
  - replace (dropClose (dropE ("E(" ++ n1 ++ "," ++ n2 ++ ")"))) with (n1 ++ String "," n2)%string; [now rewrite split_two|].
    change (("E(" ++ n1 ++ "," ++ n2 ++ ")")%string) with (String "E" (String "(" (n1 ++ String "," (n2 ++ ")")))). change (dropE (String "E" (String "(" (n1 ++ String "," (n2 ++ ")"))))) with (dropE (n1 ++ String "," (n2 ++ ")"))).
    rewrite dropE_id by (first [assumption | left; exists ","%char, (n2 ++ ")")%string; (split; [reflexivity|discriminate])]). rewrite dropE_comma.
    rewrite dropE_id by (first [assumption | left; exists ")"%char, ""%string; (split; [reflexivity|discriminate])]). change (dropE ")") with (")"%string).
    rewrite dropClose_id by auto. change (dropClose (String "," (n2 ++ ")"))) with (String "," (dropClose (n2 ++ ")"))). rewrite dropClose_id by auto. change (dropClose ")") with ""%string. now rewrite append_nil_r'.
Qed.
(** Refuted: the documented form with a minus sign; a name with a wavelength. *)
Theorem C123_color_minus_refuted : forall e color, correctColor cen e color (CText "E(B-V)") = Raise ValueError /\ correctColor cen e color (CText "B-V") = Raise ValueError.
Proof. intros. split; reflexivity. Qed.
Theorem C123_color_mixed_refuted : forall e color w A, call e w = Ok A ->
  correctColor cen e color (CPair (BName "B") (BWl w)) = Raise KeyError /\ correctColor cen e color (CPair (BWl w) (BName "B")) = Raise TypeError.
Proof. intros e color w A H. split; [reflexivity|]. unfold correctColor. now rewrite H. Qed.

(** ** Fluxes *)
Lemma ln10_pos : 0 < ln 10.
Proof. rewrite <- ln_1. apply ln_increasing; lra. Qed.
Lemma log10_mult a b : 0 < a -> 0 < b -> log10 (a * b) = log10 a + log10 b.
Proof. intros. unfold log10. rewrite ln_mult by auto. pose proof ln10_pos. field. lra. Qed.
Lemma log10_pow10 y : log10 (pow10 y) = y.
Proof. unfold log10, pow10, Rpower. rewrite ln_exp. pose proof ln10_pos. field. lra. Qed.
Lemma pow10_pos y : 0 < pow10 y.
Proof. unfold pow10, Rpower. apply exp_pos. Qed.
Lemma pow10_log10 x : 0 < x -> pow10 (log10 x) = x.
Proof. intros H. unfold log10, pow10, Rpower. pose proof ln10_pos. replace (ln x / ln 10 * ln 10) with (ln x) by (field; lra). now apply exp_ln. Qed.
Lemma pow10_plus a b : pow10 (a + b) = pow10 a * pow10 b.
Proof. unfold pow10. apply Rpower_plus. Qed.
(** Fluxes and magnitudes are corrected alike, at every wavelength. *)
Definition mag (F : R) : R := -2.5 * log10 F.
Theorem C123_flux_is_magnitude : forall e w F G, 0 < F -> correctFlux e F (BWl w) = Ok G -> 0 < G /\ correctPhotometry cen e (mag F) (BWl w) = Ok (mag G).
Proof.
  intros e w F G HF H. unfold correctFlux in H. unfold correctPhotometry. cbn [wl_of]. destruct (call e w) as [a|x|]; try discriminate. injection H as <-. pose proof (pow10_pos (a / 2.5)). split; [apply Rmult_lt_0_compat; auto|].
  unfold mag. rewrite log10_mult, log10_pow10 by auto. f_equal. lra.
Qed.
(** Corrections compose: with A0 = p + q the effect is that of p and then q, and A0 = 0 changes nothing. *)
Theorem C123_flux_composes : forall l Rv p q w F G, correctFlux (Ext l (p + q) Rv) F (BWl w) = Ok G <-> exists H, correctFlux (Ext l p Rv) F (BWl w) = Ok H /\ correctFlux (Ext l q Rv) H (BWl w) = Ok G.
Proof.
  intros. unfold correctFlux, call. cbn [lw rv a0]. destruct (f l Rv w) as [v|x|].
  - replace ((p + q) * v / 2.5) with (p * v / 2.5 + q * v / 2.5) by lra. rewrite pow10_plus. split.
    + intros H. injection H as <-. eexists. split; [reflexivity|]. f_equal. ring.
    + intros (H & E1 & E2). injection E1 as <-. rewrite <- E2. f_equal. ring.
  - split; [discriminate|]. intros (H & E1 & _). discriminate.
  - split; [discriminate|]. intros (H & E1 & _). discriminate.
Qed.
Theorem C123_flux_names : forall e F n w, line_wl n = Some w -> correctFlux e F (BName n) = correctFlux e F (BWl w).
Proof. intros e F n w H. unfold correctFlux. now rewrite H. Qed.
End WithBands.
