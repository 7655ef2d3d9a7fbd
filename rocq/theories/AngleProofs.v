(** * AngleProofs *)
From Coq Require Import Reals ZArith Lra Lia Psatz List Bool.
From Verif Require Import PyBase RealTrig AngleModel.
Open Scope R_scope.

(** the values allowed by a range *)
Definition in_range (r : option (R * R * option R)) (x : R) : Prop :=
  match r with
  | None => True
  | Some (low, up, None) => low <= x <= up
  | Some (low, up, Some c) => low <= x <= up /\ (c <= 0 -> x < up)
  end.
Definition wf_range (r : option (R * R * option R)) : Prop :=
  match r with None => True | Some (low, up, _) => low <= up end.

Lemma asin_sin_bound y : - (PI / 2) <= asin (sin y) <= PI / 2.
Proof. pose proof (SIN_bound y). apply asin_bound. Qed.

Lemma checkRange_in r x v : wf_range r -> checkRange r x = Ok v -> in_range r v.
Proof.
  destruct r as [((low, up), [c|])|]; cbn; auto.
  - intros Hw. destruct (Req_EM_T (up - low) 0); [discriminate|]. destruct (Rlt_dec 0 c) as [Hc|Hc]; intros E; injection E as <-.
    + split; [|lra]. pose proof PI_RGT_0. pose proof (asin_sin_bound (PI * (2 * x / c + (low / (low - up) - 1 / 2)))) as B.
      set (y := asin _) in *. assert (0 <= y / PI + 1 / 2 <= 1).
      { assert (y = PI * (y / PI)) as E by (field; lra). set (q := y / PI) in *. nra. }
      nra.
    + pose proof (pymod_range (x - low) (up - low) ltac:(lra)). lra.
  - intros Hw. destruct (Rle_dec low x); [|discriminate]. destruct (Rle_dec x up); [|discriminate]. intros E. injection E as <-. lra.
Qed.
Lemma checkRange_id r x : wf_range r -> in_range r x ->
  match r with Some (low, up, Some c) => low <> up /\ (0 < c -> c = 2 * (up - low)) | _ => True end ->
  checkRange r x = Ok x.
Proof.
  destruct r as [((low, up), [c|])|]; cbn; auto.
  - intros Hw (Hx & Hc) (Hn & H2). destruct (Req_EM_T (up - low) 0); [lra|]. destruct (Rlt_dec 0 c) as [H|H].
    + f_equal. specialize (H2 H). subst c. pose proof PI_RGT_0.
      replace (PI * (2 * x / (2 * (up - low)) + (low / (low - up) - 1 / 2))) with (PI * ((x - low) / (up - low) - 1 / 2)) by (field; lra).
      assert (0 <= (x - low) / (up - low) <= 1).
      { set (q := (x - low) / (up - low)). assert (x - low = q * (up - low)) as E by (unfold q; field; lra). split; nra. }
      rewrite asin_sin by (split; nra). field. split; lra.
    + rewrite pymod_id by lra. f_equal. ring.
  - intros Hw Hx _. destruct (Rle_dec low x); [|lra]. destruct (Rle_dec x up); [|lra]. reflexivity.
Qed.
(** cyclic: congruent to the value assigned *)
Lemma checkRange_cyclic low up c x v : c <= 0 -> checkRange (Some (low, up, Some c)) x = Ok v -> exists k : Z, v = x + IZR k * (up - low).
Proof.
  intros Hc. cbn. destruct (Req_EM_T (up - low) 0); [discriminate|]. destruct (Rlt_dec 0 c); [lra|]. intros E. injection E as <-.
  destruct (pymod_cong (x - low) (up - low)) as (k & ->). exists k. ring.
Qed.
(** triangle wave: equal to the value assigned up to the period and reflection at the upper edge *)
Lemma checkRange_triangle low up x v : low < up -> checkRange (Some (low, up, Some (2 * (up - low)))) x = Ok v ->
  exists k : Z, x = v + IZR k * (2 * (up - low)) \/ x = (2 * up - v) + IZR k * (2 * (up - low)).
Proof.
  intros Hlt. cbn. destruct (Req_EM_T (up - low) 0); [discriminate|]. destruct (Rlt_dec 0 (2 * (up - low))); [|lra].
  intros E. injection E as E. pose proof PI_RGT_0.
  set (th := PI * (2 * x / (2 * (up - low)) + (low / (low - up) - 1 / 2))) in *.
  assert (Ex : x = (up - low) * (th / PI + 1 / 2) + low) by (unfold th; field; split; lra).
  assert (S : sin th = sin (asin (sin th))) by (rewrite sin_asin; [reflexivity|apply SIN_bound]).
  set (y := asin (sin th)) in *.
  destruct (sin_eq_cases th y S) as (k & [K|K]); exists k; rewrite Ex, K, <- E; [left|right]; field; lra.
Qed.

Lemma setRad_cases a x a' r : setRad a x = (a', r) -> 
  (exists e, r = Raise e /\ a' = a /\ checkRange (range a) x = Raise e) \/
  (exists v, r = Ok tt /\ a' = Ang v (range a) /\ checkRange (range a) x = Ok v).
Proof.
  unfold setRad. destruct (checkRange (range a) x) as [v|e|] eqn:E; intros H; injection H as <- <-; eauto 8.
  exfalso. destruct (range a) as [((low, up), [c|])|]; cbn in E; try discriminate; repeat (match type of E with context [if ?b then _ else _] => destruct b end; try discriminate).
Qed.

Lemma rad_le x y : x <= y -> rad x <= rad y.
Proof. intros H. unfold rad. pose proof PI_RGT_0. apply Rmult_le_compat_r; [|]; [lra|]. apply Rmult_le_compat_r; lra. Qed.

Lemma checkRange_fuel r x : checkRange r x <> OutOfFuel.
Proof. destruct r as [((low, up), [c|])|]; cbn; try discriminate; repeat (match goal with |- context [if ?b then _ else _] => destruct b end; try discriminate). Qed.

(** ** The invariant: the value is in range and the range is well formed *)
Definition ok (a : ang) : Prop := wf_range (range a) /\ in_range (range a) (decval a).
(** degminsec with negative degrees while a range is set, and a range of width zero with
    a cycle, are the excluded operations *)
Definition op_ok (a : ang) (o : aop) : Prop :=
  match o with
  | ODms d _ _ => d < 0 -> range a = None
  | ORange (R2 low up) => True
  | ORange (R3 low up (Some _)) => low <> up
  | _ => True
  end.
Lemma setRad_ok a x : ok a -> ok (fst (setRad a x)).
Proof.
  intros (Hw & Hi). destruct (setRad a x) as (a', r) eqn:E. apply setRad_cases in E. cbn [fst].
  destruct E as [(e & -> & -> & _)|(v & -> & -> & Ev)]; [split; auto|]. split; [exact Hw|]. cbn [range decval]. eapply checkRange_in; eauto.
Qed.
Definition no_zero_width (r : option (R * R * option R)) : Prop :=
  match r with Some (low, up, Some c) => low <> up | _ => True end.
Lemma checkRange_exn r x e : no_zero_width r -> checkRange r x = Raise e -> e = ValueError.
Proof.
  destruct r as [((low, up), [c|])|]; cbn; intros H.
  - destruct (Req_EM_T (up - low) 0); [lra|]. destruct (Rlt_dec 0 c); discriminate.
  - destruct (Rle_dec low x); [destruct (Rle_dec x up)|]; congruence.
  - discriminate.
Qed.
Lemma applyRange_cases a r : no_zero_width r ->
  (applyRange a r = (a, Raise ValueError) /\ checkRange r (decval a) = Raise ValueError) \/
  (exists v, applyRange a r = (Ang v r, Ok tt) /\ checkRange r (decval a) = Ok v).
Proof.
  intros H. unfold applyRange. destruct (checkRange r (decval a)) as [v|e|] eqn:E.
  - right. eauto.
  - left. now rewrite (checkRange_exn _ _ _ H E).
  - destruct (checkRange_fuel _ _ E).
Qed.
Lemma applyRange_ok a r : ok a -> wf_range r -> no_zero_width r -> ok (fst (applyRange a r)).
Proof.
  intros Ha Hw Hn. destruct (applyRange_cases a r Hn) as [(-> & _)|(v & -> & E)]; [exact Ha|].
  split; [exact Hw|]. eapply checkRange_in; eauto.
Qed.
Lemma rad_inj x y : rad x = rad y -> x = y.
Proof. intros H. rewrite <- (deg_rad x), <- (deg_rad y). now rewrite H. Qed.
Lemma setRange_cases a r : op_ok a (ORange r) ->
  (exists e, setRange a r = (a, Raise e)) \/
  (exists r', setRange a r = applyRange a r' /\ wf_range r' /\ no_zero_width r' /\
     r' = match r with RNone | RBad => None | R2 low up => Some (rad low, rad up, if Req_EM_T (up - low) 360 then Some 0 else None)
          | R3 low up c => Some (rad low, rad up, option_map rad c) end).
Proof.
  intros Ho. destruct r as [|low up|low up c|].
  - right. exists None. repeat split.
  - unfold setRange. destruct (Rlt_dec up low); [left; eauto|]. right. eexists. split; [reflexivity|].
    split; [apply rad_le; lra|]. destruct (Req_EM_T (up - low) 360) as [E|E]; cbn [no_zero_width option_map]; (split; [|]); auto.
    + intros E'. apply rad_inj in E'. lra.
    + replace (rad 0) with 0 by (unfold rad; field). reflexivity.
  - unfold setRange. destruct (Rlt_dec up low); [left; eauto|]. right. eexists. split; [reflexivity|].
    split; [apply rad_le; lra|]. split; auto. destruct c; cbn; auto. cbn in Ho. intros E'. apply rad_inj in E'. lra.
  - left. eexists. reflexivity.
Qed.
Lemma setRange_ok a r : ok a -> op_ok a (ORange r) -> ok (fst (setRange a r)).
Proof.
  intros Ha Ho. destruct (setRange_cases a r Ho) as [(e & ->)|(r' & -> & Hw & Hn & _)]; [exact Ha|]. now apply applyRange_ok.
Qed.
Lemma setDms_ok a d m s : ok a -> (d < 0 -> range a = None) -> ok (fst (setDms a d m s)).
Proof.
  intros Ha Hd. unfold setDms. pose proof (setRad_ok a ((Rabs d + Rabs m / 60 + Rabs s / 3600) * PI / 180) Ha) as Hok. unfold setDeg.
  destruct (setRad a _) as (a', r) eqn:E. cbn [fst] in Hok.
  destruct r as [[]|e|]; cbn [fst]; auto. destruct (Rlt_dec d 0); auto.
  apply setRad_cases in E. destruct E as [(e & ? & _)|(v & _ & -> & _)]; [discriminate|]. rewrite (Hd r). split; cbn; auto.
Qed.
Lemma astep_ok a o : ok a -> op_ok a o -> ok (fst (astep a o)).
Proof.
  intros Ha Ho. destruct o; cbn [astep]; try (apply setRad_ok; exact Ha).
  - now apply setDms_ok.
  - now apply setRange_ok.
Qed.
(** raising calls change nothing, under the same exclusion *)
Lemma astep_fail a o e : op_ok a o -> snd (astep a o) = Raise e -> fst (astep a o) = a.
Proof.
  assert (S : forall x, snd (setRad a x) = Raise e -> fst (setRad a x) = a).
  { intros x. destruct (setRad a x) as (a', r) eqn:E. apply setRad_cases in E. cbn. destruct E as [(e' & -> & -> & _)|(v & -> & _)]; auto. discriminate. }
  intros Ho. destruct o as [x|x|x|h m s|d m s|r]; cbn [astep]; try apply S.
  - unfold setDms. unfold setDeg. specialize (S ((Rabs d + Rabs m / 60 + Rabs s / 3600) * PI / 180)).
    destruct (setRad a _) as (a', [[]|e'|]); cbn in *; auto. discriminate.
  - destruct (setRange_cases a r Ho) as [(e' & ->)|(r' & -> & Hw & Hn & _)]; auto.
    destruct (applyRange_cases a r' Hn) as [(-> & _)|(v & -> & E)]; auto. discriminate.
Qed.
