(** * NoiseProof: spectra made from a model, with noise (C117) *)
From Coq Require Import List Bool Reals String Ascii Arith Lra Lia.
From Verif Require Import PyBase PubModel PubProps IoModel SpecModel FeatModel NoiseModel.
Import ListNotations.
Open Scope R_scope.

Section Noise.
Variable g : R -> R.
Notation step := (nstep g).
Notation history := (nhistory g).
Lemma setx_settings s b x smp s' r : setx g s b x smp = (s', r) -> nfun s' = nfun s /\ ntyp s' = ntyp s /\ nerrf s' = nerrf s /\ nnoise s' = nnoise s /\ mx s' = x.
Proof.
  unfold setx. intros H. destruct (match nerrf s with None => _ | Some k => _ end) as [er|e|].
  - destruct (nnoise s) as [k|] eqn:E.
    + destruct (add_noise k (nfun s) b x (map g x) smp); injection H as <- <-; cbn; auto.
    + injection H as <- <-. cbn. auto.
  - injection H as <- <-. cbn. auto.
  - injection H as <- <-. cbn. auto.
Qed.
Definition agree (s : mspec) : Prop := nerrf s = ntyp s /\ nnoise s = ntyp s.
Lemma setx_agree s b x smp : agree s -> agree (fst (setx g s b x smp)).
Proof. intros (A & B). destruct (setx g s b x smp) as (s', r) eqn:E. apply setx_settings in E. destruct E as (_ & E2 & E3 & E4 & _). cbn [fst]. split; congruence. Qed.
Lemma step_agree s o : agree s -> agree (fst (step s o)).
Proof.
  assert (F : forall f smp, agree s -> agree (fst (set_fun g s f smp))).
  { intros f smp A. unfold set_fun. destruct (ntyp s) eqn:Et; [|exact A]. pose proof (setx_agree (with_fun s (Some f)) true (mx s) smp A) as X. destruct (setx g (with_fun s (Some f)) true (mx s) smp) as (s2, r). cbn [fst] in X. destruct r; exact X. }
  intros A. destruct o as [b x smp|a smp|v smp]; cbn [nstep].
  - now apply setx_agree.
  - destruct a as [|r|f|]; cbn [set_noisefunc]; [exact A|now apply F|now apply F|exact A].
  - unfold set_noisetype. destruct v as [w|]; [|split; reflexivity]. destruct (nfun s); [|exact A]. destruct (if str_eqb w (L "poisson") then _ else _) as [k|]; [|exact A].
    pose proof (setx_agree (with_kind s (Some k) (Some k) (Some k)) true (mx s) smp (conj eq_refl eq_refl)) as X. destruct (setx g (with_kind s (Some k) (Some k) (Some k)) true (mx s) smp) as (s2, r). cbn [fst] in X. destruct r; [exact X|exact A|exact A].
Qed.
Lemma history_agree x ops : agree (history x ops).
Proof. unfold nhistory. assert (G : forall s, agree s -> agree (fold_left (fun s o => fst (step s o)) ops s)) by (induction ops as [|o ops I]; intros s A; cbn [fold_left]; [exact A|]; apply I; now apply step_agree). apply G. split; reflexivity. Qed.

Lemma bcast_same op a b : List.length a = List.length b -> bcast op a b = Ok (map2 op a b).
Proof. intros E. unfold bcast. now rewrite E, Nat.eqb_refl. Qed.
Lemma bcast_bad op a b : List.length a <> List.length b -> List.length a <> 1%nat -> List.length b <> 1%nat -> bcast op a b = Raise ValueError.
Proof. intros E A B. unfold bcast. destruct (Nat.eqb_spec (List.length a) (List.length b)); [contradiction|]. destruct a as [|u [|u' a]]; cbn in A; try congruence; (destruct b as [|v [|v' b]]; cbn in B; try congruence; reflexivity). Qed.
Lemma map2_nth op : forall (a b : list R) k, List.length a = List.length b -> (k < List.length a)%nat -> nth k (map2 op a b) 0 = op (nth k a 0) (nth k b 0).
Proof.
  intros a b k E K. unfold map2. rewrite (nth_indep _ 0 ((fun p => op (fst p) (snd p)) (0, 0))) by (rewrite map_length, combine_length; lia). rewrite (map_nth (fun p => op (fst p) (snd p)) (combine a b) (0, 0) k). now rewrite combine_nth.
Qed.
Lemma map2_len op (a b : list R) : List.length a = List.length b -> List.length (map2 op a b) = List.length a.
Proof. intros E. unfold map2. rewrite map_length, combine_length. lia. Qed.
Lemma inplace_same op a b : List.length a = List.length b -> inplace op a b = Ok (map2 op a b).
Proof. intros E. unfold inplace. rewrite bcast_same by exact E. now rewrite map2_len, Nat.eqb_refl. Qed.
(** ** What is seen at x after an evaluation: the model with the noise just drawn, never with noise drawn before *)
Definition evaluated (kind : option ntype) (f : option nfunc) (x flux smp : list R) : Prop :=
  match kind with
  | None => List.length flux = List.length x /\ forall k, (k < List.length x)%nat -> nth k flux 0 = g (nth k x 0)
  | Some Normal => List.length flux = List.length x /\ forall k, (k < List.length x)%nat -> nth k flux 0 = g (nth k x 0) + nth k smp 0
  | Some Poisson => exists h v, f = Some h /\ h x (map g x) = Ok v /\ (List.length v = List.length x -> List.length flux = List.length x /\ forall k, (k < List.length x)%nat -> nth k flux 0 = g (nth k x 0) * (nth k smp 0 / nth k v 0))
  end.
Lemma nth_g x k : (k < List.length x)%nat -> nth k (map g x) 0 = g (nth k x 0).
Proof. intros K. rewrite (nth_indep _ 0 (g 0)) by now rewrite map_length. apply map_nth. Qed.
Lemma setx_evaluated s b x smp s' : agree s -> List.length smp = List.length x -> setx g s b x smp = (s', Ok tt) -> evaluated (ntyp s) (nfun s) x (mflux s') smp.
Proof.
  intros (A & B) Ls H. unfold setx in H. rewrite B in H. destruct (match nerrf s with None => _ | Some k => _ end) as [er|e|]; try discriminate. destruct (ntyp s) as [k|].
  - unfold add_noise in H. destruct (nfun s) as [f|]; [|discriminate]. destruct (f x (map g x)) as [v|e|] eqn:Ef; try discriminate. destruct b; [|discriminate]. cbn [negb] in H. destruct (can_draw (List.length x) v); [|discriminate]. cbn [negb] in H. destruct k; cbn [evaluated].
    + exists f, v. split; [reflexivity|]. split; [exact Ef|]. intros Lv. rewrite bcast_same in H by lia. rewrite inplace_same in H by (rewrite map_length, map2_len; lia). injection H as <-. cbn [mflux]. rewrite map2_len by (rewrite map_length, map2_len; lia). rewrite map_length. split; [reflexivity|]. intros j J. rewrite !map2_nth by (rewrite ?map_length, ?map2_len; lia). now rewrite nth_g.
    + rewrite inplace_same in H by (rewrite map_length; lia). injection H as <-. cbn [mflux]. rewrite map2_len by (rewrite map_length; lia). rewrite map_length. split; [reflexivity|]. intros j J. rewrite map2_nth by (rewrite ?map_length; lia). now rewrite nth_g.
  - injection H as <-. cbn [mflux evaluated]. rewrite map_length. split; [reflexivity|]. intros k K. now apply nth_g.
Qed.
(** assigning x *)
Theorem noise_set_x x0 ops b x smp s' : List.length smp = List.length x -> let s := history x0 ops in step s (SetX b x smp) = (s', Ok tt) -> mx s' = x /\ nfun s' = nfun s /\ ntyp s' = ntyp s /\ evaluated (ntyp s) (nfun s) x (mflux s') smp.
Proof. intros Ls s H. cbn [nstep] in H. pose proof (setx_settings _ _ _ _ _ _ H) as (A1 & A2 & _ & _ & A5). repeat split; trivial. apply (setx_evaluated s b x smp s'); trivial. apply history_agree. Qed.
(** turning noise on: the type asked for, at the same x *)
Definition means (w : str) (k : ntype) : Prop := match k with Poisson => w = L "poisson" | Normal => w <> L "poisson" /\ (w = L "normal" \/ sub (L "gauss") w) end.
Theorem noise_set_type x0 ops w smp s' : let s := history x0 ops in List.length smp = List.length (mx s) -> step s (SetType (Some w) smp) = (s', Ok tt) ->
  exists k, means w k /\ ntyp s' = Some k /\ nfun s' = nfun s /\ mx s' = mx s /\ evaluated (Some k) (nfun s) (mx s) (mflux s') smp.
Proof.
  intros s Ls H. cbn [nstep set_noisetype] in H. unfold set_noisetype in H. destruct (nfun s) as [f|] eqn:Ef; [|discriminate]. destruct (if str_eqb w (L "poisson") then _ else _) as [k|] eqn:Ek; [|discriminate].
  exists k. split.
  { destruct (str_eqb w (L "poisson")) eqn:Ep; [apply eqs in Ep; injection Ek as <-; exact Ep|]. assert (Np : w <> L "poisson") by (intros ->; rewrite (proj2 (eqs _ _) eq_refl) in Ep; discriminate). destruct (find (L "gauss") w) as [(u, v)|] eqn:Eg.
    - injection Ek as <-. split; [exact Np|]. right. apply find_spec in Eg. now exists u, v.
    - destruct (str_eqb w (L "normal")) eqn:En; [|discriminate]. apply eqs in En. injection Ek as <-. split; [exact Np|now left]. }
  destruct (setx g (with_kind s (Some k) (Some k) (Some k)) true (mx s) smp) as (s2, r) eqn:E. destruct r as [[]| |]; try discriminate. injection H as <-. pose proof (setx_settings _ _ _ _ _ _ E) as (A1 & A2 & _ & _ & A5). cbn in A1, A2.
  repeat split; trivial; try congruence. rewrite <- Ef. apply (setx_evaluated (with_kind s (Some k) (Some k) (Some k)) true (mx s) smp s2); trivial. split; reflexivity.
Qed.
(** whatever is refused leaves noise function and type as they were *)
Theorem noise_refused x0 ops o e : let s := history x0 ops in snd (step s o) = Raise e -> let s' := fst (step s o) in nfun s' = nfun s /\ ntyp s' = ntyp s.
Proof.
  intros s. assert (F : forall f smp, snd (set_fun g s f smp) = Raise e -> nfun (fst (set_fun g s f smp)) = nfun s /\ ntyp (fst (set_fun g s f smp)) = ntyp s).
  { intros f smp. unfold set_fun. destruct (ntyp s) eqn:Et; [|discriminate]. destruct (setx g (with_fun s (Some f)) true (mx s) smp) as (s2, r) eqn:E. apply setx_settings in E. destruct E as (_ & E & _). cbn in E. destruct r; try discriminate. intros _. cbn. split; congruence. }
  destruct o as [b x smp|a smp|v smp]; cbn [nstep].
  - intros _. destruct (setx g s b x smp) as (s2, r) eqn:E. apply setx_settings in E. cbn. tauto.
  - destruct a as [|r|f|]; cbn [set_noisefunc]; [discriminate|apply F|apply F|auto].
  - unfold set_noisetype. destruct v as [w|]; [|discriminate]. destruct (nfun s) as [f|] eqn:Ef; [|cbn [fst snd]; auto]. destruct (if str_eqb w (L "poisson") then _ else _) as [k|]; [|cbn [fst snd]; auto].
    destruct (setx g (with_kind s (Some k) (Some k) (Some k)) true (mx s) smp) as (s2, r) eqn:E. apply setx_settings in E. destruct E as (E & _). cbn in E. destruct r; try discriminate. intros _. cbn. split; [congruence|reflexivity].
Qed.
(** texts that name no noise, or no noise function yet *)
Theorem noise_type_invalid x0 ops w smp : let s := history x0 ops in nfun s = None \/ (w <> L "poisson" /\ w <> L "normal" /\ ~ sub (L "gauss") w) -> step s (SetType (Some w) smp) = (s, Raise ValueError).
Proof.
  intros s H. cbn [nstep]. unfold set_noisetype. destruct (nfun s); [|reflexivity]. destruct H as [H|(H1 & H2 & H3)]; [discriminate|].
  destruct (str_eqb w (L "poisson")) eqn:E1; [apply eqs in E1; contradiction|]. destruct (find (L "gauss") w) as [(u, v)|] eqn:E; [apply find_spec in E; exfalso; apply H3; now exists u, v|]. destruct (str_eqb w (L "normal")) eqn:E2; [apply eqs in E2; contradiction|reflexivity].
Qed.
(** ** Normal noise of one size: the error is that size at every pixel, for every x *)
Definition constant (f : nfunc) (r : R) : Prop := forall x fl, f x fl = Ok (map (fun _ => r) x).
Lemma can_draw_const x r : 0 <= r -> can_draw (List.length x) (map (fun _ : R => r) x) = true.
Proof. intros H. unfold can_draw. rewrite map_length, Nat.eqb_refl. cbn [orb andb]. apply forallb_forall. intros u U. apply in_map_iff in U. destruct U as (_ & <- & _). destruct (Rlt_dec r 0); [lra|reflexivity]. Qed.
Lemma setx_constant s f r x smp : agree s -> ntyp s = Some Normal -> nfun s = Some f -> constant f r -> 0 <= r -> List.length smp = List.length x -> exists s', setx g s true x smp = (s', Ok tt) /\ merr s' = map (fun _ => r) x /\ mx s' = x /\ evaluated (Some Normal) (Some f) x (mflux s') smp.
Proof.
  intros A T F C P Ls. destruct (setx g s true x smp) as (s', res) eqn:E. pose proof E as E0. exists s'. unfold setx in E. destruct A as (A & B). rewrite A, B, T, F in E. cbn [err_of] in E. rewrite C in E. unfold add_noise in E. rewrite C in E. cbn [negb] in E. rewrite can_draw_const in E by exact P. cbn [negb] in E. rewrite inplace_same in E by (rewrite map_length; lia). injection E as E1 E2. subst res. split; [reflexivity|]. split; [now subst s'|]. split; [now subst s'|]. rewrite <- T, <- F. apply (setx_evaluated s true x smp s'); trivial. split; trivial.
Qed.
Theorem noise_constant x0 ops r smp1 smp2 x smp3 : let s := history x0 ops in 0 <= r -> List.length smp1 = List.length (mx s) -> List.length smp2 = List.length (mx s) -> List.length smp3 = List.length x -> ntyp s = None ->
  exists s1 s2 s3, step s (SetFun (Scalar r) smp1) = (s1, Ok tt) /\ mflux s1 = mflux s /\ step s1 (SetType (Some (L "normal")) smp2) = (s2, Ok tt) /\ merr s2 = map (fun _ => r) (mx s) /\ evaluated (Some Normal) (nfun s2) (mx s) (mflux s2) smp2 /\
  step s2 (SetX true x smp3) = (s3, Ok tt) /\ merr s3 = map (fun _ => r) x /\ evaluated (Some Normal) (nfun s3) x (mflux s3) smp3.
Proof.
  intros s P L1 L2 L3 T. pose proof (history_agree x0 ops) as A. fold s in A. set (f := fun (x : list R) (_ : list R) => @Ok (list R) (map (fun _ => r) x)). exists (with_fun s (Some f)).
  destruct (setx_constant (with_kind (with_fun s (Some f)) (Some Normal) (Some Normal) (Some Normal)) f r (mx s) smp2) as (s2 & E2 & M2 & X2 & V2); [split; reflexivity|reflexivity|reflexivity|intros x' fl; reflexivity|exact P|exact L2|].
  pose proof (setx_settings _ _ _ _ _ _ E2) as (S1 & S2 & S3 & S4 & _). cbn in S1, S2, S3, S4.
  destruct (setx_constant s2 f r x smp3) as (s3 & E3 & M3 & X3 & V3); [split; congruence|exact S2|exact S1|intros x' fl; reflexivity|exact P|exact L3|].
  pose proof (setx_settings _ _ _ _ _ _ E3) as (T1 & _). exists s2, s3. split; [cbn [nstep set_noisefunc]; unfold set_fun; now rewrite T|]. split; [reflexivity|]. split.
  { cbn [nstep]. unfold set_noisetype. cbn [with_fun nfun mx]. change (str_eqb (L "normal") (L "poisson")) with false. assert (G : find (L "gauss") (L "normal") = None) by (vm_compute; reflexivity). rewrite G. change (str_eqb (L "normal") (L "normal")) with true. cbv iota. cbn [with_kind with_fun mx mflux merr nfun] in E2 |- *. rewrite E2. reflexivity. }
  split; [exact M2|]. split; [rewrite S1; exact V2|]. split; [exact E3|]. split; [exact M3|]. rewrite T1, S1. exact V3.
Qed.
(** ** What fails *)
Theorem noise_constructor_refuted x r t smp : new_mspec g x (Scalar r) t smp = Raise AttributeError.
Proof. reflexivity. Qed.
(** turning the noise off leaves it in the flux *)
Theorem noise_off_refuted x0 ops smp : let s := history x0 ops in exists s', step s (SetType None smp) = (s', Ok tt) /\ ntyp s' = None /\ mflux s' = mflux s /\ merr s' = merr s.
Proof. intros s. eexists. split; [reflexivity|]. auto. Qed.
(** the noise function can be taken away while the noise is on; then x changes without the flux *)
Theorem noise_function_gone_refuted x0 ops k smp b x smp' : let s := history x0 ops in ntyp s = Some k -> exists s1 s2, step s (SetFun NoFunc smp) = (s1, Ok tt) /\ ntyp s1 = Some k /\ step s1 (SetX b x smp') = (s2, Raise TypeError) /\ mx s2 = x /\ mflux s2 = mflux s.
Proof.
  intros s T. exists (with_fun s None). eexists. split; [reflexivity|]. split; [exact T|]. pose proof (history_agree x0 ops) as (A & B). fold s in A, B. cbn [nstep]. unfold setx. cbn [with_fun nerrf nnoise nfun]. rewrite A, T. cbn [err_of]. split; [reflexivity|]. split; reflexivity.
Qed.
(** with noise, x must be an array: for a list the flux is left without noise *)
Theorem noise_list_refuted x0 ops f r x smp : let s := history x0 ops in ntyp s = Some Normal -> nfun s = Some f -> constant f r -> exists s', step s (SetX false x smp) = (s', Raise AttributeError) /\ mx s' = x /\ mflux s' = map g x.
Proof.
  intros s T F C. pose proof (history_agree x0 ops) as (A & B). fold s in A, B. cbn [nstep]. unfold setx. rewrite A, B, T, F. cbn [err_of]. rewrite C. unfold add_noise. rewrite C. cbn [negb]. eexists. split; [reflexivity|]. split; reflexivity.
Qed.
(** the errors of Poisson noise are those of the flux before, and another number of pixels is refused when x has already changed *)
Theorem noise_pixels_refuted x0 ops f x smp v : let s := history x0 ops in ntyp s = Some Poisson -> nfun s = Some f -> f x (mflux s) = Ok v -> List.length v = List.length x -> List.length x <> List.length (mflux s) -> List.length x <> 1%nat -> List.length (mflux s) <> 1%nat ->
  exists s', step s (SetX true x smp) = (s', Raise ValueError) /\ mx s' = x /\ mflux s' = mflux s.
Proof.
  intros s T F E Lv N N1 N2. pose proof (history_agree x0 ops) as (A & B). fold s in A, B. cbn [nstep]. unfold setx. rewrite A, T, F. cbn [err_of]. rewrite E. rewrite bcast_bad; [|rewrite map_length; lia|lia|rewrite map_length; lia]. eexists. split; [reflexivity|split; reflexivity].
Qed.
End Noise.
(** the error of Poisson noise is not that of the flux: here flux 0 with error 1 *)
Theorem noise_error_refuted : exists s s', nhistory (fun _ => 1) [5; 6] [SetFun (Scalar 1) []] = s /\ nstep (fun _ => 1) s (SetType (Some (L "poisson")) [0; 2]) = (s', Ok tt) /\ mflux s' = [1 * (0 / 1); 1 * (2 / 1)] /\ merr s' = [1 * / sqrt 1; 1 * / sqrt 1].
Proof.
  eexists _, _. split; [reflexivity|]. split. 2:{ shelve. } unfold nhistory. cbn [fold_left nstep set_noisefunc]. unfold set_fun. cbn [new_plain ntyp fst]. unfold set_noisetype. cbn [with_fun nfun]. change (str_eqb (L "poisson") (L "poisson")) with true. cbv iota. unfold setx. cbn [with_kind with_fun nerrf nnoise nfun mx mflux merr new_plain err_of map bcast List.length Nat.eqb map2 combine fst snd add_noise negb].
  unfold can_draw. cbn [List.length Nat.eqb orb andb forallb]. destruct (Rlt_dec 1 0) as [X|X]; [exfalso; lra|]. cbn. reflexivity.
  Unshelve. all: try (split; reflexivity); reflexivity.
Qed.
(** any text with gauss in it means normal noise *)
Theorem noise_text_refuted : exists s s', nhistory (fun _ => 1) [5] [SetFun (Scalar 1) []] = s /\ nstep (fun _ => 1) s (SetType (Some (L "not gaussian")) [2]) = (s', Ok tt) /\ ntyp s' = Some Normal.
Proof.
  eexists _, _. split; [reflexivity|]. split. 2:{ shelve. } unfold nhistory. cbn [fold_left nstep set_noisefunc]. unfold set_fun. cbn [new_plain ntyp fst]. unfold set_noisetype. cbn [with_fun nfun]. assert (G : find (L "gauss") (L "not gaussian") = Some (L "not ", L "ian")) by (vm_compute; reflexivity). rewrite G. change (str_eqb (L "not gaussian") (L "poisson")) with false. cbv iota. unfold setx. cbn [with_kind with_fun nerrf nnoise nfun mx mflux merr new_plain err_of map bcast List.length Nat.eqb map2 combine fst snd add_noise negb].
  unfold can_draw. cbn [List.length Nat.eqb orb andb forallb]. destruct (Rlt_dec 1 0) as [X|X]; [exfalso; lra|]. cbn. reflexivity.
  Unshelve. all: try (split; reflexivity); reflexivity.
Qed.
