(** * PhotTrans: C45 (UBVRI and ugriz dictionaries), C46 (colour and effective temperature) *)
From Coq Require Import List Bool Reals Lra Lia String Sorted.
From Coquelicot Require Import Coquelicot.
From Verif Require Import PyBase CosmoDistModel CosmoDistProps CosmoDistInt PhotModel PhotProps PhotDist.
Import ListNotations.
Open Scope R_scope.

(** ** C45 *)
Open Scope string_scope.
Definition sdss : list string := ["u"; "g"; "r"; "i"; "z"].
Definition johnson : list string := ["U"; "B"; "V"; "R"; "I"].
Definition any_of (l : list string) (d : dict) : Prop := exists k, In k l /\ d k <> None.
Lemma has_iff d k : has d k = true <-> d k <> None. Proof. unfold has. destruct (d k); split; congruence. Qed.
Lemma sdss_iff d : has d "u" || has d "g" || has d "r" || has d "i" || has d "z" = true <-> any_of sdss d.
Proof.
  rewrite !orb_true_iff, !has_iff. unfold any_of, sdss. split.
  - intros [[[[H|H]|H]|H]|H]; eexists; (split; [|exact H]); cbn; auto 7.
  - intros (k & [<-|[<-|[<-|[<-|[<-|[]]]]]] & H); auto 7.
Qed.
Lemma johnson_iff d : has d "U" || has d "B" || has d "V" || has d "R" || has d "I" = true <-> any_of johnson d.
Proof.
  rewrite !orb_true_iff, !has_iff. unfold any_of, johnson. split.
  - intros [[[[H|H]|H]|H]|H]; eexists; (split; [|exact H]); cbn; auto 7.
  - intros (k & [<-|[<-|[<-|[<-|[<-|[]]]]]] & H); auto 7.
Qed.
(** When the call succeeds and when it fails, and that a failed call changes nothing. *)
Theorem C45_outcome : forall d,
  (any_of sdss d -> any_of johnson d -> transform_dict d = (d, Raise ValueError)) /\
  (~ any_of sdss d -> ~ any_of johnson d -> transform_dict d = (d, Raise TypeError)) /\
  (any_of sdss d -> ~ any_of johnson d -> (d "g" = None \/ d "r" = None) -> transform_dict d = (d, Raise ValueError)) /\
  (any_of johnson d -> ~ any_of sdss d -> (d "B" = None \/ d "V" = None) -> transform_dict d = (d, Raise ValueError)).
Proof.
  intros d. unfold transform_dict. pose proof (sdss_iff d) as S. pose proof (johnson_iff d) as J. destruct (has d "u" || _ || _ || _ || _) eqn:ES; destruct (has d "U" || _ || _ || _ || _) eqn:EJ; cbn [andb];
    (repeat split; intros); try reflexivity; try (exfalso; intuition congruence).
  - destruct (ugriz_to_UBVRI _ _ _ _ _) as ((((U, B), V), Rc), Ic). assert (has d "g" && has d "r" = false) as ->; [|reflexivity]. unfold has. destruct H1 as [-> | ->]; [reflexivity|apply andb_false_r].
  - destruct (UBVRI_to_ugriz _ _ _ _ _) as ((((U, B), V), Rc), Ic). assert (has d "B" && has d "V" = false) as ->; [|reflexivity]. unfold has. destruct H1 as [-> | ->]; [reflexivity|apply andb_false_r].
Qed.
(** From SDSS magnitudes with g and r: the values of B, V, of U when u is there, of R and I when i and z are there, and every other key is untouched. *)
Definition when (b : bool) (x : R) (old : option R) : option R := if b then Some x else old.
Lemma dset_eq d k x n : dset d k x n = if String.eqb n k then Some x else d n. Proof. reflexivity. Qed.
Theorem C45_from_sdss : forall d g r, ~ any_of johnson d -> d "g" = Some g -> d "r" = Some r ->
  exists d', transform_dict d = (d', Ok tt) /\ d' "B" = Some (g + 39/100 * (g - r) + 21/100) /\ d' "V" = Some (g - 59/100 * (g - r) - 1/100) /\
    (match d "u" with Some u => exists U B, d' "U" = Some U /\ d' "B" = Some B /\ U - B = 78/100 * (u - g) - 88/100 | None => d' "U" = None end) /\
    (match d "i", d "z" with Some i, Some _ => exists V R I, d' "V" = Some V /\ d' "R" = Some R /\ d' "I" = Some I /\ V - R = 109/100 * (r - i) + 22/100 /\ R - I = r - i + 21/100
     | _, _ => d' "R" = None /\ d' "I" = None end) /\
    (forall k, ~ In k johnson -> d' k = d k).
Proof.
  intros d g r NJ Eg Er. assert (any_of sdss d) as S by (exists "g"; split; [right; left; reflexivity|congruence]). apply sdss_iff in S. unfold transform_dict.
  assert (has d "U" || has d "B" || has d "V" || has d "R" || has d "I" = false) as J by (apply not_true_iff_false; rewrite johnson_iff; auto). rewrite S, J. cbn [andb].
  assert (forall k, In k johnson -> d k = None) as NK. { intros k Hk. destruct (d k) eqn:E; [|reflexivity]. elim NJ. exists k. split; [auto|congruence]. }
  pose proof (NK "U" ltac:(cbn; auto)) as NU. pose proof (NK "R" ltac:(cbn; auto 6)) as NR. pose proof (NK "I" ltac:(cbn; auto 6)) as NI.
  unfold ugriz_to_UBVRI, dget. rewrite Eg, Er. unfold has. rewrite Eg, Er. cbn [andb].
  destruct (d "u") as [u|] eqn:Eu; destruct (d "i") as [i|] eqn:Ei; destruct (d "z") as [z|] eqn:Ez; cbn [andb]; (eexists; split; [reflexivity|]); rewrite !dset_eq; cbn [String.eqb Ascii.eqb Bool.eqb];
    (split; [reflexivity|]); (split; [reflexivity|]); (split; [try (do 2 eexists; split; [reflexivity|]; split; [reflexivity|]; field); try assumption|]);
    (split; [try (do 3 eexists; split; [reflexivity|]; split; [reflexivity|]; split; [reflexivity|]; split; field); try (split; assumption)|]);
    (intros k Hk; rewrite !dset_eq; repeat match goal with |- context[String.eqb k ?c] => destruct (String.eqb_spec k c) as [->|_]; [elim Hk; cbn; auto 7|] end; reflexivity).
Qed.
Print Assumptions C45_from_sdss.
Theorem C45_from_johnson : forall d B V, ~ any_of sdss d -> d "B" = Some B -> d "V" = Some V ->
  exists d', transform_dict d = (d', Ok tt) /\ d' "g" = Some (V + 60/100 * (B - V) - 12/100) /\ d' "r" = Some (V - 42/100 * (B - V) + 11/100) /\
    (match d "U" with Some U => exists u g, d' "u" = Some u /\ d' "g" = Some g /\ u - g = 128/100 * (U - B) + 113/100 | None => d' "u" = None end) /\
    (match d "R", d "I" with Some R, Some I => exists r i z, d' "r" = Some r /\ d' "i" = Some i /\ d' "z" = Some z /\ r - i = 91/100 * (R - I) - 20/100 /\ r - z = 172/100 * (R - I) - 41/100
     | _, _ => d' "i" = None /\ d' "z" = None end) /\
    (forall k, ~ In k sdss -> d' k = d k).
Proof.
  intros d B V NJ Eg Er. assert (any_of johnson d) as S by (exists "B"; split; [right; left; reflexivity|congruence]). apply johnson_iff in S. unfold transform_dict.
  assert (has d "u" || has d "g" || has d "r" || has d "i" || has d "z" = false) as J by (apply not_true_iff_false; rewrite sdss_iff; auto). rewrite S, J. cbn [andb].
  assert (forall k, In k sdss -> d k = None) as NK. { intros k Hk. destruct (d k) eqn:E; [|reflexivity]. elim NJ. exists k. split; [auto|congruence]. }
  pose proof (NK "u" ltac:(cbn; auto)) as NU. pose proof (NK "i" ltac:(cbn; auto 6)) as NR. pose proof (NK "z" ltac:(cbn; auto 6)) as NI.
  unfold UBVRI_to_ugriz, dget. rewrite Eg, Er. unfold has. rewrite Eg, Er. cbn [andb].
  destruct (d "U") as [u|] eqn:Eu; destruct (d "R") as [i|] eqn:Ei; destruct (d "I") as [z|] eqn:Ez; cbn [andb]; (eexists; split; [reflexivity|]); rewrite !dset_eq; cbn [String.eqb Ascii.eqb Bool.eqb];
    (split; [reflexivity|]); (split; [reflexivity|]); (split; [try (do 2 eexists; split; [reflexivity|]; split; [reflexivity|]; field); try assumption|]);
    (split; [try (do 3 eexists; split; [reflexivity|]; split; [reflexivity|]; split; [reflexivity|]; split; field); try (split; assumption)|]);
    (intros k Hk; rewrite !dset_eq; repeat match goal with |- context[String.eqb k ?c] => destruct (String.eqb_spec k c) as [->|_]; [elim Hk; cbn; auto 7|] end; reflexivity).
Qed.
Print Assumptions C45_from_johnson.
Close Scope string_scope.
(** After a successful call both systems are present: a second call fails and changes nothing. *)
Theorem C45_second_call : forall d d', transform_dict d = (d', Ok tt) -> transform_dict d' = (d', Raise ValueError).
Proof.
  intros d d' E. assert (any_of sdss d' /\ any_of johnson d') as (A & B); [|exact (proj1 (C45_outcome d') A B)].
  assert (forall l, any_of l d \/ ~ any_of l d) as X. { intros l. unfold any_of. induction l as [|k l IH]; [right; intros (k & [] & _)|]. destruct (d k) eqn:Ek; [left; exists k; split; [left; auto|congruence]|]. destruct IH as [(k' & A & B)|N]; [left; exists k'; split; [right; auto|auto]|right; intros (k' & [<-|A] & B); [congruence|apply N; exists k'; auto]]. }
  destruct (C45_outcome d) as (O1 & O2 & O3 & O4).
  destruct (X sdss) as [S|S]; destruct (X johnson) as [J|J].
  - rewrite (O1 S J) in E. discriminate.
  - destruct (d "g"%string) as [g|] eqn:Eg; [|rewrite (O3 S J ltac:(auto)) in E; discriminate]. destruct (d "r"%string) as [r|] eqn:Er; [|rewrite (O3 S J ltac:(auto)) in E; discriminate].
    destruct (C45_from_sdss d g r J Eg Er) as (d1 & E1 & EB & _ & _ & _ & K). rewrite E1 in E. injection E as <-. split; [exists "g"%string; split; [cbn; auto|rewrite K; [congruence|cbn; intuition discriminate]]|exists "B"%string; split; [cbn; auto|congruence]].
  - destruct (d "B"%string) as [g|] eqn:Eg; [|rewrite (O4 J S ltac:(auto)) in E; discriminate]. destruct (d "V"%string) as [r|] eqn:Er; [|rewrite (O4 J S ltac:(auto)) in E; discriminate].
    destruct (C45_from_johnson d g r S Eg Er) as (d1 & E1 & EB & _ & _ & _ & K). rewrite E1 in E. injection E as <-. split; [exists "g"%string; split; [cbn; auto|congruence]|exists "B"%string; split; [cbn; auto|rewrite K; [congruence|cbn; intuition discriminate]]].
  - rewrite (O2 S J) in E. discriminate.
Qed.
Print Assumptions C45_second_call.
(** Only colours count: making everything s magnitudes fainter makes every result s magnitudes fainter. *)
Definition shift5 (s : R) (t : R * R * R * R * R) : R * R * R * R * R := let '(a, b, c, d, e) := t in (a + s, b + s, c + s, d + s, e + s).
Theorem C45_shift : forall a b c d e s, UBVRI_to_ugriz (a + s) (b + s) (c + s) (d + s) (e + s) = shift5 s (UBVRI_to_ugriz a b c d e) /\ ugriz_to_UBVRI (a + s) (b + s) (c + s) (d + s) (e + s) = shift5 s (ugriz_to_UBVRI a b c d e).
Proof. intros. unfold UBVRI_to_ugriz, ugriz_to_UBVRI, shift5. split; repeat apply (f_equal2 pair); field. Qed.
(** There and back: U, B and V come back to 0.01 mag for ordinary stars, but R does not. *)
Theorem C45_there_and_back : forall U B V Rc Ic, -5/10 <= B - V <= 2 -> -15/10 <= U - B <= 2 ->
  let '(u, g, r, i, z) := UBVRI_to_ugriz U B V Rc Ic in let '(U', B', V', R', I') := ugriz_to_UBVRI u g r i z in Rabs (U' - U) <= 1/100 /\ Rabs (B' - B) <= 1/100 /\ Rabs (V' - V) <= 1/100.
Proof. intros U B V Rc Ic H1 H2. unfold UBVRI_to_ugriz, ugriz_to_UBVRI. repeat split; apply Rabs_le; lra. Qed.
Theorem C45_there_and_back_refuted : forall s, 0 <= s -> exists U B V Rc Ic, let '(u, g, r, i, z) := UBVRI_to_ugriz U B V Rc Ic in let '(U', B', V', R', I') := ugriz_to_UBVRI u g r i z in s < Rabs (R' - Rc).
Proof. intros s Hs. exists 0, 0, 0, (s + 1), (s + 1). unfold UBVRI_to_ugriz, ugriz_to_UBVRI. rewrite Rabs_left; lra. Qed.
(** i without z gives neither R nor I, although z is not used for them. *)
Theorem C45_needs_z_refuted : exists d d', (d "g" <> None /\ d "r" <> None /\ d "i" <> None)%string /\ transform_dict d = (d', Ok tt) /\ (d' "R" = None)%string /\
  forall z, ugriz_to_UBVRI 0 1 1 1 z = ugriz_to_UBVRI 0 1 1 1 0.
Proof. exists (dset (dset (dset (fun _ => None) "g" 1) "r" 1) "i" 1)%string. eexists. repeat split; try (cbn; congruence). Qed.

(** ** C46, g-r *)
Lemma gr_decr a b : -2/10 <= a -> a < b -> b <= 9/10 -> gr_poly b < gr_poly a.
Proof.
  intros Ha Hab Hb. unfold gr_poly. assert (gr_poly b - gr_poly a = (b - a) * (283/10000 * (b * b + a * b + a * a) + 488/10000 * (a + b) - 316/1000)) as E by (unfold gr_poly; field).
  assert (b * b + a * b + a * a <= 243/100) by nra. unfold gr_poly in E. assert (0 < b - a) by lra. nra.
Qed.
(** [l] is the list of the roots of the cubic with their multiplicities: the cubic is the product of the linear factors, as a polynomial over the complex numbers *)
Definition Cz (p : R * R) : Complex.C := p.
Definition is_roots (k : R) (l : list (R * R)) : Prop :=
  forall z : Complex.C, Cplus (Cplus (Cplus (Cmult (RtoC (283/10000)) (Cmult z (Cmult z z))) (Cmult (RtoC (488/10000)) (Cmult z z))) (Cmult (RtoC (-316/1000)) z)) (RtoC k)
    = Cmult (RtoC (283/10000)) (fold_right (fun r acc => Cmult (Cminus z (Cz r)) acc) (RtoC 1) l).
Definition cub (k t : R) : R := 283/10000 * t ^ 3 + 488/10000 * t ^ 2 - 316/1000 * t + k.
Lemma is_roots_real k l : is_roots k l -> forall t, Cmult (RtoC (283/10000)) (fold_right (fun r acc => Cmult (Cminus (RtoC t) (Cz r)) acc) (RtoC 1) l) = RtoC (cub k t).
Proof. intros H t. rewrite <- (H (RtoC t)). unfold cub. apply injective_projections; unfold Cplus, Cmult, RtoC; cbn [fst snd]; field. Qed.
Lemma RtoC_inj (a b : R) : RtoC a = RtoC b -> a = b. Proof. intros E. exact (f_equal fst E). Qed.
Lemma RtoC_ne (a : R) : a <> 0 -> RtoC a <> RtoC 0. Proof. intros N E. exact (N (RtoC_inj _ _ E)). Qed.
Lemma Cmult_integral (x y : Complex.C) : Cmult x y = RtoC 0 -> x = RtoC 0 \/ y = RtoC 0.
Proof. intros E. destruct (Ceq_dec x (RtoC 0)) as [->|N]; [auto|right]. destruct (Ceq_dec y (RtoC 0)) as [->|N']; [auto|]. elim (Cmult_neq_0 x y N N' E). Qed.
Lemma prod_zero (l : list (R * R)) (z : Complex.C) : fold_right (fun r acc => Cmult (Cminus z (Cz r)) acc) (RtoC 1) l = RtoC 0 -> In (z : R * R) l.
Proof.
  induction l as [|r l IH]; cbn [fold_right].
  - intros E. apply RtoC_inj in E. lra.
  - intros E. apply Cmult_integral in E. destruct E as [E|E]; [left|right; auto]. assert (z = Cplus (Cminus z (Cz r)) (Cz r)) as Q by (apply injective_projections; cbn; ring). rewrite Q, E. unfold Cz. symmetry. apply injective_projections; cbn; ring.
Qed.
Lemma root_in k l t : is_roots k l -> (In (t, 0) l <-> cub k t = 0).
Proof.
  intros H. split.
  - intros Hin. pose proof (is_roots_real k l H t) as E. assert (fold_right (fun r acc => Cmult (Cminus (RtoC t) (Cz r)) acc) (RtoC 1) l = RtoC 0) as Z.
    { clear -Hin. induction l as [|r l IH]; [contradiction|]. cbn [fold_right]. destruct Hin as [->|Hin].
      - assert (Cminus (RtoC t) (Cz (t, 0)) = RtoC 0) as -> by (apply injective_projections; cbn; ring). apply Cmult_0_l.
      - rewrite IH by auto. apply Cmult_0_r. }
    rewrite Z, Cmult_0_r in E. symmetry. apply RtoC_inj, E.
  - intros E. apply (prod_zero l (RtoC t)). pose proof (is_roots_real k l H t) as Q. rewrite E in Q. apply Cmult_integral in Q. destruct Q as [Q|Q]; [|exact Q]. apply RtoC_inj in Q. lra.
Qed.
(** a multiple root has zero derivative *)
Lemma cub_dec k a b : -2/10 <= a -> a < b -> b <= 9/10 -> cub k b < cub k a.
Proof. intros H1 H2 H3. pose proof (gr_decr a b H1 H2 H3) as G. unfold gr_poly in G. unfold cub. lra. Qed.
Lemma prod_split (z : Complex.C) a r b : fold_right (fun r acc => Cmult (Cminus z (Cz r)) acc) (RtoC 1) (a ++ r :: b) = Cmult (Cminus z (Cz r)) (fold_right (fun r acc => Cmult (Cminus z (Cz r)) acc) (RtoC 1) (a ++ b)).
Proof. induction a as [|x a IH]; [reflexivity|]. cbn [List.app fold_right]. rewrite IH. set (P := fold_right _ _ _). apply injective_projections; cbn; ring. Qed.
Lemma no_double k a b c t : -2/10 <= t <= 9/10 -> ~ is_roots k (a ++ (t, 0) :: b ++ (t, 0) :: c).
Proof.
  intros Ht H. assert (cub k t = 0) as Z by (apply (root_in k _ t H); rewrite in_app_iff; right; left; reflexivity).
  (* the quotient by (x-t) vanishes at t, and it is (real) quadratic *)
  set (l := (a ++ b) ++ c). assert (forall x, x <> t -> (x - t) * fst (Cmult (RtoC (283/10000)) (fold_right (fun r acc => Cmult (Cminus (RtoC x) (Cz r)) acc) (RtoC 1) l)) = cub k x / (x - t)) as Q.
  { intros x Hx. pose proof (is_roots_real k _ H x) as E. rewrite prod_split, app_assoc, prod_split in E. fold l in E. set (P := fold_right _ _ l) in *. apply (f_equal fst) in E. cbn in E. cbn. rewrite <- E. field. lra. }
  (* (x-t) * q = p/(x-t) = second factor; it tends to 0 at t *)
  assert (forall x, x <> t -> cub k x / (x - t) = 283/10000 * (x * x + x * t + t * t) + 488/10000 * (x + t) - 316/1000) as F.
  { intros x Hx. replace (cub k x) with (cub k x - cub k t) by lra. unfold cub. field. lra. }
  set (q := fun x => fst (Cmult (RtoC (283/10000)) (fold_right (fun r acc => Cmult (Cminus (RtoC x) (Cz r)) acc) (RtoC 1) l))).
  assert (continuity_pt q t) as Cq.
  { assert (forall m, continuity_pt (fun x => fst (fold_right (fun r acc => Cmult (Cminus (RtoC x) (Cz r)) acc) (RtoC 1) m)) t /\ continuity_pt (fun x => snd (fold_right (fun r acc => Cmult (Cminus (RtoC x) (Cz r)) acc) (RtoC 1) m)) t) as K.
    { induction m as [|r m (IH1 & IH2)]; [split; cbn; apply continuity_pt_const; intros u v; reflexivity|]. cbn [fold_right Cmult fst snd]. 
      assert (continuity_pt (fun x => fst (Cminus (RtoC x) (Cz r))) t) as C1. { cbn. apply derivable_continuous_pt. reg. }
      assert (continuity_pt (fun x => snd (Cminus (RtoC x) (Cz r))) t) as C2. { cbn. apply derivable_continuous_pt. reg. }
      split; [apply (continuity_pt_minus (fun x => fst (Cminus (RtoC x) (Cz r)) * fst (fold_right (fun r acc => Cmult (Cminus (RtoC x) (Cz r)) acc) (RtoC 1) m)) (fun x => snd (Cminus (RtoC x) (Cz r)) * snd (fold_right (fun r acc => Cmult (Cminus (RtoC x) (Cz r)) acc) (RtoC 1) m))); apply continuity_pt_mult; auto|].
      apply (continuity_pt_plus (fun x => fst (Cminus (RtoC x) (Cz r)) * snd (fold_right (fun r acc => Cmult (Cminus (RtoC x) (Cz r)) acc) (RtoC 1) m)) (fun x => snd (Cminus (RtoC x) (Cz r)) * fst (fold_right (fun r acc => Cmult (Cminus (RtoC x) (Cz r)) acc) (RtoC 1) m))); apply continuity_pt_mult; auto. }
    unfold q. cbn [Cmult fst RtoC snd]. destruct (K l) as (K1 & K2).
    apply (continuity_pt_minus (fun x => 283/10000 * fst (fold_right (fun r acc => Cmult (Cminus (RtoC x) (Cz r)) acc) (RtoC 1) l)) (fun x => 0 * snd (fold_right (fun r acc => Cmult (Cminus (RtoC x) (Cz r)) acc) (RtoC 1) l))); apply continuity_pt_mult; auto; apply continuity_pt_const; intros u v; reflexivity. }
  set (g := fun x => (x - t) * q x - (283/10000 * (x * x + x * t + t * t) + 488/10000 * (x + t) - 316/1000)).
  assert (continuity_pt g t) as Cg. { apply continuity_pt_minus; [apply continuity_pt_mult; [apply derivable_continuous_pt; reg|exact Cq]|apply derivable_continuous_pt; reg]. }
  assert (forall x, x <> t -> g x = 0) as G0. { intros x Hx. unfold g. specialize (Q x Hx). fold (q x) in Q. rewrite Q, F by auto. ring. }
  assert (g t <> 0) as Gt. { unfold g. assert (0 < 316/1000 - (283/10000 * (t * t + t * t + t * t) + 488/10000 * (t + t))) by nra. lra. }
  destruct (Cg (Rabs (g t)) (Rabs_pos_lt _ Gt)) as (d & Hd & Hc). specialize (Hc (t + d / 2)). cbn in Hc. unfold R_dist in Hc. rewrite G0 in Hc by lra. replace (0 - g t) with (- g t) in Hc by ring. rewrite Rabs_Ropp in Hc.
  assert (Rabs (g t) < Rabs (g t)); [|lra]. apply Hc. split; [unfold D_x, no_cond; split; [auto|lra]|]. replace (t + d / 2 - t) with (d / 2) by ring. rewrite Rabs_right; lra.
Qed.
(** what the search returns *)
Definition inr (p : R * R) : Prop := snd p = 0 /\ -2/10 <= fst p <= 9/10.
Lemma good_root_none l acc : (forall p, In p l -> ~ inr p) -> good_root l acc = Ok acc.
Proof.
  induction l as [|(x, y) l IH]; intros H; [reflexivity|]. cbn [good_root]. pose proof (H (x, y) (or_introl eq_refl)) as N. unfold inr in N. cbn [fst snd] in N.
  destruct (Req_EM_T y 0); [|apply IH; intros; apply H; right; auto]. destruct (Rle_dec (-2/10) x); [|apply IH; intros; apply H; right; auto]. destruct (Rle_dec x (9/10)); [exfalso; intuition lra|apply IH; intros; apply H; right; auto].
Qed.
Lemma good_root_one a t b acc : (forall p, In p a -> ~ inr p) -> (forall p, In p b -> ~ inr p) -> -2/10 <= t <= 9/10 -> acc = None -> good_root (a ++ (t, 0) :: b) acc = Ok (Some t).
Proof.
  intros Ha Hb Ht ->. induction a as [|(x, y) a IH]; cbn [good_root List.app].
  - destruct (Req_EM_T 0 0); [|lra]. destruct (Rle_dec (-2/10) t); [|lra]. destruct (Rle_dec t (9/10)); [|lra]. now apply good_root_none.
  - pose proof (Ha (x, y) (or_introl eq_refl)) as N. unfold inr in N. cbn [fst snd] in N. assert (forall p, In p a -> ~ inr p) as Ha' by (intros; apply Ha; right; auto).
    destruct (Req_EM_T y 0); [|auto]. destruct (Rle_dec (-2/10) x); [|auto]. destruct (Rle_dec x (9/10)); [exfalso; intuition lra|auto].
Qed.
Lemma search k l : is_roots k l -> (forall t, -2/10 <= t <= 9/10 -> cub k t = 0 -> good_root l None = Ok (Some t)) /\ ((forall t, -2/10 <= t <= 9/10 -> cub k t <> 0) -> good_root l None = Ok None).
Proof.
  intros H. assert (forall p, In p l -> inr p -> cub k (fst p) = 0) as R0. { intros (x, y) Hin (E & _). cbn [snd fst] in *. subst. now apply (root_in k l x H). }
  split.
  - intros t Ht Z. assert (In (t, 0) l) as Hin by (apply (root_in k l t H); auto). destruct (in_split _ _ Hin) as (a & b & ->).
    assert (forall x, In (x, 0) (a ++ (t, 0) :: b) -> -2/10 <= x <= 9/10 -> x = t) as U.
    { intros x Hx Hr. apply (root_in k _ x H) in Hx. destruct (Rtotal_order x t) as [L|[E|L]]; [pose proof (cub_dec k x t ltac:(lra) L ltac:(lra)); lra|auto|pose proof (cub_dec k t x ltac:(lra) L ltac:(lra)); lra]. }
    apply good_root_one; auto.
    + intros (x, y) Hp (E & Hr). cbn [fst snd] in *. subst y. assert (x = t) as -> by (apply U; auto; apply in_app_iff; auto). destruct (in_split _ _ Hp) as (a1 & a2 & ->). apply (no_double k a1 a2 b t Ht). rewrite <- app_assoc in H. exact H.
    + intros (x, y) Hp (E & Hr). cbn [fst snd] in *. subst y. assert (x = t) as -> by (apply U; auto; apply in_app_iff; right; right; auto). destruct (in_split _ _ Hp) as (b1 & b2 & ->). apply (no_double k a b1 b2 t Ht). exact H.
  - intros N. apply good_root_none. intros p Hp Hi. pose proof (R0 p Hp Hi). destruct Hi as (_ & Hr). exact (N (fst p) Hr H0).
Qed.
Lemma gr_cub teff c : cub (3882/1000 - log10 teff) c = gr_poly c - log10 teff. Proof. unfold cub, gr_poly. ring. Qed.
(** The colour g-r and the temperature: inverse functions on the allowed ranges, bluer is hotter; a colour outside [-0.2, 0.9] is rejected; a temperature that no
    allowed colour has gives None; "multiple matches" never happens. *)
Theorem C46_gr : forall roots, (forall k, is_roots k (roots k)) ->
  (forall c, -2/10 <= c <= 9/10 -> exists t, color_to_teff "g-r" c = Ok t /\ 0 < t /\ teff_to_color roots "g-r" t = Ok (Some c)) /\
  (forall c, c < -2/10 \/ 9/10 < c -> color_to_teff "g-r" c = Raise ValueError) /\
  (forall a b ta tb, a < b -> color_to_teff "g-r" a = Ok ta -> color_to_teff "g-r" b = Ok tb -> tb < ta) /\
  (forall t, 0 < t -> (exists c, teff_to_color roots "g-r" t = Ok (Some c) /\ color_to_teff "g-r" c = Ok t) \/
     (teff_to_color roots "g-r" t = Ok None /\ forall c, color_to_teff "g-r" c <> Ok t)).
Proof.
  intros roots Hroots. assert (forall c, -2/10 <= c <= 9/10 -> gr_to_teff c = Ok (Rpower 10 (gr_poly c))) as In0. { intros c Hc. unfold gr_to_teff. destruct (Rle_dec (-2/10) c); [|lra]. destruct (Rle_dec c (9/10)); [reflexivity|lra]. }
  assert (forall c, c < -2/10 \/ 9/10 < c -> gr_to_teff c = Raise ValueError) as Out. { intros c Hc. unfold gr_to_teff. destruct (Rle_dec (-2/10) c); [|reflexivity]. destruct (Rle_dec c (9/10)); [lra|reflexivity]. }
  assert (forall c t, gr_to_teff c = Ok t -> -2/10 <= c <= 9/10 /\ t = Rpower 10 (gr_poly c)) as Inv. { intros c t E. unfold gr_to_teff in E. destruct (Rle_dec (-2/10) c); [|discriminate]. destruct (Rle_dec c (9/10)); [|discriminate]. split; [lra|congruence]. }
  change (color_to_teff "g-r") with gr_to_teff. change (teff_to_color roots "g-r") with (teff_to_gr roots). unfold teff_to_gr.
  split; [|split; [exact Out|split]].
  - intros c Hc. exists (Rpower 10 (gr_poly c)). split; [auto|]. split; [apply exp_pos|]. apply (proj1 (search _ _ (Hroots _))); auto. rewrite gr_cub, log10_pow. ring.
  - intros a b ta tb Hab Ea Eb. destruct (Inv _ _ Ea) as (Ra & ->). destruct (Inv _ _ Eb) as (Rb & ->). apply Rpower_lt; [lra|]. apply gr_decr; lra.
  - intros t Ht. destruct (search _ _ (Hroots (3882/1000 - log10 t))) as (S1 & S2).
    assert ((exists c, -2/10 <= c <= 9/10 /\ cub (3882/1000 - log10 t) c = 0) \/ (forall c, -2/10 <= c <= 9/10 -> cub (3882/1000 - log10 t) c <> 0)) as [(c & Hc & Z)|N].
    { set (k := 3882/1000 - log10 t). destruct (Rlt_dec (cub k (-2/10)) 0) as [L|L].
      - right. intros c Hc. destruct (Req_EM_T c (-2/10)) as [->|N]; [lra|]. pose proof (cub_dec k (-2/10) c ltac:(lra) ltac:(lra) ltac:(lra)). lra.
      - destruct (Rlt_dec 0 (cub k (9/10))) as [L'|L'].
        + right. intros c Hc. destruct (Req_EM_T c (9/10)) as [->|N]; [lra|]. pose proof (cub_dec k c (9/10) ltac:(lra) ltac:(lra) ltac:(lra)). lra.
        + left. 
          assert (continuity (fun x => - cub k x)) as Ck by (unfold cub; reg).
          destruct (IVT_cor (fun x => - cub k x) (-2/10) (9/10) Ck ltac:(lra)) as (c & Hc & Z); [nra|]. exists c. split; [auto|lra]. }
    + left. exists c. split; [auto|]. rewrite In0 by auto. f_equal. rewrite gr_cub in Z. replace (gr_poly c) with (log10 t) by lra. now apply pow_log10.
    + right. split; [auto|]. intros c E. destruct (Inv _ _ E) as (Hc & ->). apply (N c Hc). rewrite gr_cub, log10_pow. ring.
Qed.
Print Assumptions C46_gr.
(** such a function exists *)
Lemma roots_exist : { roots : R -> list (R * R) | forall k, is_roots k (roots k) }.
Proof.
  assert (forall k, { r | cub k r = 0 }) as R1.
  { intros k. set (M := 10 + Rabs k). assert (10 <= M /\ Rabs k <= M) as (M1 & M2) by (unfold M; pose proof (Rabs_pos k); lra). pose proof (Rle_abs k). pose proof (Rle_abs (- k)) as A. rewrite Rabs_Ropp in A.
    assert (100 * M <= M ^ 3) by nra. assert (10 * M ^ 2 <= M ^ 3) by nra. assert (10 * M <= M ^ 2) by nra.
    assert (continuity (cub k)) as Ck by (unfold cub; reg). destruct (IVT_cor (cub k) (- M) M Ck ltac:(lra)) as (r & _ & Z); [|exists r; exact Z].
    assert (cub k (- M) <= 0) by (unfold cub; replace ((- M) ^ 3) with (- M ^ 3) by ring; replace ((- M) ^ 2) with (M ^ 2) by ring; lra). assert (0 <= cub k M) by (unfold cub; lra). nra. }
  assert (forall k, { l | is_roots k l }) as R2; [|exists (fun k => proj1_sig (R2 k)); intros k; exact (proj2_sig (R2 k))].
  intros k. destruct (R1 k) as (r & Z). set (a := 283/10000). set (b := 488/10000 + a * r). set (c := - 316/1000 + b * r). assert (k = - (c * r)) as Ek by (unfold c, b, a; unfold cub in Z; lra).
  set (p := - b / (2 * a)). set (D := (b * b - 4 * a * c) / (4 * a * a)). assert (c = a * (p * p - D)) as Ec by (unfold p, D, a; field). assert (b = - (2 * a * p)) as Eb by (unfold p, a; field).
  destruct (Rle_dec 0 D) as [L|L].
  - exists [(r, 0); (p + sqrt D, 0); (p - sqrt D, 0)]. pose proof (sqrt_sqrt D L) as S. set (s := sqrt D) in *. clearbody s. rewrite <- S in Ec. clear S L. clearbody D. intros (x, y). cbn [fold_right]. fold a.
    assert (488/10000 = b - a * r) as -> by (unfold b; ring). assert (- 316/1000 = c - b * r) as -> by (unfold c; ring). rewrite Ek. clearbody c. subst c. clear Ek Z. clearbody p. clearbody b. subst b. clearbody a. apply injective_projections; unfold Cplus, Cmult, Cminus, Copp, Cz, RtoC, Cplus; cbn [fst snd]; ring.
  - exists [(r, 0); (p, sqrt (- D)); (p, - sqrt (- D))]. pose proof (sqrt_sqrt (- D) ltac:(lra)) as S. set (s := sqrt (- D)) in *. clearbody s. assert (D = - (s * s)) as ED by lra. rewrite ED in Ec. clear S L ED. clearbody D. intros (x, y). cbn [fold_right]. fold a.
    assert (488/10000 = b - a * r) as -> by (unfold b; ring). assert (- 316/1000 = c - b * r) as -> by (unfold c; ring). rewrite Ek. clearbody c. subst c. clear Ek Z. clearbody p. clearbody b. subst b. clearbody a. apply injective_projections; unfold Cplus, Cmult, Cminus, Copp, Cz, RtoC, Cplus; cbn [fst snd]; ring.
Qed.

(** ** C46, B-V *)
Definition line (p q : R * R) (x : R) : R := snd p + (snd q - snd p) / (fst q - fst p) * (x - fst p).
Definition incr_fst (l : list (R * R)) : Prop := StronglySorted (fun p q => fst p < fst q) l.
Lemma interp_from_seg p q x : forall a b, incr_fst (a ++ p :: q :: b) -> fst p < x <= fst q -> forall x0 y0, (forall t, In t (a ++ p :: q :: b) -> x0 < fst t) -> interp_from x0 y0 x (a ++ p :: q :: b) = line p q x.
Proof.
  induction a as [|(x1, y1) a IH]; intros b S Hx x0 y0 H0; cbn [List.app interp_from].
  - destruct p as (px, py), q as (qx, qy). cbn [fst snd] in *. destruct (Rle_dec x px); [lra|]. cbn [interp_from]. destruct (Rle_dec x qx); [reflexivity|lra].
  - inversion S as [|? ? S' F]; subst. rewrite Forall_forall in F. destruct (Rle_dec x x1) as [L|_].
    + assert (fst (x1, y1) < fst p) by (apply F, in_app_iff; right; left; auto). cbn [fst] in *. lra.
    + apply IH; auto.
Qed.
Lemma interp_seg p q x a b : incr_fst (a ++ p :: q :: b) -> fst p <= x <= fst q -> interp x (a ++ p :: q :: b) = line p q x.
Proof.
  intros S Hx. destruct a as [|(x0, y0) a]; cbn [List.app interp] in *.
  - inversion S as [|? ? S' F]; subst. destruct p as (px, py), q as (qx, qy). assert (px < qx) by (inversion F; auto). cbn [fst snd] in *. destruct (Rle_dec x px).
    + assert (x = px) as -> by lra. unfold line. cbn [fst snd]. field. lra.
    + cbn [interp_from]. destruct (Rle_dec x qx); [reflexivity|lra].
  - inversion S as [|? ? S' F]; subst. rewrite Forall_forall in F. assert (x0 < fst p) as L0 by (apply (F p), in_app_iff; right; left; auto). destruct (Rle_dec x x0) as [L|L]; [lra|].
    assert (fst p < fst q) as Lpq. { clear -S'. induction a as [|t a IH]; cbn [List.app] in S'; inversion S' as [|? ? S2 F2]; subst; [inversion F2; auto|auto]. }
    destruct (Req_EM_T x (fst p)) as [->|N]; [|apply (interp_from_seg p q x a b S' ltac:(lra)); exact F].
    (* at the left end the previous segment gives the same value *)
    unfold line. replace (snd p + (snd q - snd p) / (fst q - fst p) * (fst p - fst p)) with (snd p) by (field; lra).
    clear Hx L. assert (forall t, In t (a ++ p :: q :: b) -> x0 < fst t) as F' by exact F. clear F S. revert x0 y0 L0 F'. induction a as [|(x1, y1) a IH]; intros x0 y0 L0 F; cbn [List.app interp_from].
    + destruct p as (px, py). cbn [fst snd] in *. destruct (Rle_dec px px); [|lra]. field. lra.
    + inversion S' as [|? ? S2 F2]; subst. rewrite Forall_forall in F2. assert (x1 < fst p) by (apply (F2 p), in_app_iff; right; left; auto). destruct (Rle_dec (fst p) x1); [lra|]. apply IH; auto.
Qed.
Lemma interp_low x x0 y0 l : x <= x0 -> interp x ((x0, y0) :: l) = y0.
Proof. intros H. cbn [interp]. destruct (Rle_dec x x0); [reflexivity|lra]. Qed.
Lemma interp_high l p x : incr_fst (l ++ [p]) -> fst p <= x -> interp x (l ++ [p]) = snd p.
Proof.
  intros S Hx. assert (forall l x0 y0, incr_fst (l ++ [p]) -> x0 < fst p -> interp_from x0 y0 x (l ++ [p]) = snd p) as K.
  { clear l S. induction l as [|(x1, y1) l IH]; intros x0 y0 S L; cbn [List.app interp_from].
    - destruct p as (px, py). cbn [fst snd] in *. destruct (Rle_dec x px); [|reflexivity]. assert (x = px) as -> by lra. field. lra.
    - inversion S as [|? ? S' F]; subst. rewrite Forall_forall in F. assert (x1 < fst p) by (apply (F p), in_app_iff; right; left; auto). destruct (Rle_dec x x1); [lra|]. apply IH; auto. }
  destruct l as [|(x0, y0) l]; cbn [List.app interp].
  - destruct p as (px, py). cbn [fst snd interp_from] in *. destruct (Rle_dec x px); reflexivity.
  - inversion S as [|? ? S' F]; subst. rewrite Forall_forall in F. assert (x0 < fst p) by (apply (F p), in_app_iff; right; left; auto). destruct (Rle_dec x x0); [lra|]. apply K; auto.
Qed.
Lemma find_seg (l : list (R * R)) : forall (p : R * R) x, fst p <= x -> (exists q, In q l /\ x <= fst q) -> exists a u v b, p :: l = a ++ u :: v :: b /\ fst u <= x <= fst v.
Proof.
  induction l as [|q l IH]; intros p x Hp (t & Hin & Ht); [contradiction|]. destruct (Rle_dec x (fst q)) as [L|L].
  - exists [], p, q, l. split; [reflexivity|lra].
  - destruct Hin as [<-|Hin]; [contradiction|]. destruct (IH q x ltac:(lra)) as (a & u & v & b & E & H); [exists t; auto|]. exists (p :: a), u, v, b. split; [cbn; now rewrite E|auto].
Qed.
Lemma sf_sorted : incr_fst sf_table.
Proof. unfold sf_table. repeat (apply SSorted_cons; [|repeat (apply Forall_cons; [cbn [fst]; lra|]); apply Forall_nil]). apply SSorted_nil. Qed.
Definition sf_swap : list (R * R) := rev (map (fun p => (snd p, fst p)) sf_table).
Lemma sf_swap_sorted : incr_fst sf_swap.
Proof. unfold sf_swap, sf_table. cbn [map rev List.app fst snd]. repeat (apply SSorted_cons; [|repeat (apply Forall_cons; [cbn [fst]; lra|]); apply Forall_nil]). apply SSorted_nil. Qed.
Lemma sf_down a u v b : sf_table = a ++ u :: v :: b -> fst u < fst v /\ snd v < snd u.
Proof.
  intros E. assert (StronglySorted (fun p q : R * R => fst p < fst q /\ snd q < snd p) sf_table) as S. { unfold sf_table. repeat (apply SSorted_cons; [|repeat (apply Forall_cons; [cbn [fst snd]; lra|]); apply Forall_nil]). apply SSorted_nil. }
  rewrite E in S. clear E. induction a as [|t a IH]; cbn [List.app] in S; inversion S as [|? ? S' F]; subst; [inversion F; auto|auto].
Qed.
Lemma swap_seg a u v b : sf_table = a ++ u :: v :: b -> exists a' b', sf_swap = a' ++ (snd v, fst v) :: (snd u, fst u) :: b'.
Proof. intros E. unfold sf_swap. rewrite E, map_app. cbn [map]. rewrite rev_app_distr. cbn [rev]. rewrite <- !app_assoc. cbn [List.app]. eexists; eexists. reflexivity. Qed.
Lemma bv_seg c : 3/10 <= c <= 15/10 -> exists a u v b, sf_table = a ++ u :: v :: b /\ fst u <= c <= fst v /\ bv_to_teff c = line u v c.
Proof.
  intros Hc. unfold sf_table. destruct (find_seg (tl sf_table) (3/10, 7078) c ltac:(cbn [fst]; lra)) as (a & u & v & b & E & H).
  - exists (15/10, 3882). split; [unfold sf_table; cbn [tl In]; auto 15|cbn [fst]; lra].
  - exists a, u, v, b. split; [exact E|]. split; [auto|]. unfold bv_to_teff. change sf_table with ((3/10, 7078) :: tl sf_table). rewrite E. apply interp_seg; [|auto]. rewrite <- E. exact sf_sorted.
Qed.
Lemma tv_seg t : 3882 <= t <= 7078 -> exists a u v b, sf_table = a ++ u :: v :: b /\ snd v <= t <= snd u /\ teff_to_bv t = line (snd v, fst v) (snd u, fst u) t.
Proof.
  intros Ht. destruct (find_seg (tl sf_swap) (3882, 15/10) t ltac:(cbn [fst]; lra)) as (a & u & v & b & E & H).
  - exists (7078, 3/10). split; [unfold sf_swap, sf_table; cbn [map rev List.app tl In fst snd]; auto 15|cbn [fst]; lra].
  - change ((3882, 15/10) :: tl sf_swap) with sf_swap in E. exists (rev (map (fun p => (snd p, fst p)) b)), (snd v, fst v), (snd u, fst u), (rev (map (fun p => (snd p, fst p)) a)). cbn [fst snd]. split; [|split; [auto|]].
    + assert (sf_table = map (fun p => (snd p, fst p)) (rev sf_swap)) as ->. { unfold sf_swap. rewrite rev_involutive, map_map. symmetry. rewrite <- (map_id sf_table) at 2. apply map_ext. intros (x, y). reflexivity. }
      rewrite E, rev_app_distr. cbn [rev]. rewrite <- !app_assoc. cbn [List.app]. rewrite map_app. cbn [map]. rewrite <- !map_rev. reflexivity.
    + unfold teff_to_bv. fold sf_swap. rewrite E. replace (fst u, snd u) with u by (destruct u; reflexivity). replace (fst v, snd v) with v by (destruct v; reflexivity). apply interp_seg; [|auto]. rewrite <- E. exact sf_swap_sorted.
Qed.
Lemma line_range u v c : fst u < fst v -> snd v < snd u -> fst u <= c <= fst v -> snd v <= line u v c <= snd u.
Proof.
  intros H1 H2 Hc. unfold line. assert (0 <= (c - fst u) / (fst v - fst u) <= 1) as K. { split; [apply Rdiv_le_0_compat; lra|]. apply (Rmult_le_reg_r (fst v - fst u)); [lra|]. unfold Rdiv. rewrite Rmult_assoc, Rinv_l by lra. lra. }
  replace ((snd v - snd u) / (fst v - fst u) * (c - fst u)) with ((snd v - snd u) * ((c - fst u) / (fst v - fst u))) by (unfold Rdiv; ring). nra.
Qed.
Lemma line_inv u v c : fst u < fst v -> snd v < snd u -> line (snd v, fst v) (snd u, fst u) (line u v c) = c /\ line u v (line (snd v, fst v) (snd u, fst u) c) = c.
Proof. intros H1 H2. unfold line. cbn [fst snd]. split; field; lra. Qed.
(** The colour B-V and the temperature: inverse functions between [0.3, 1.5] and [3882, 7078] that go through the published points, redder is cooler; outside, the value at the end. *)
Theorem C46_bv : forall roots,
  (forall c, 3/10 <= c <= 15/10 -> exists t, color_to_teff "B-V" c = Ok t /\ 3882 <= t <= 7078 /\ teff_to_color roots "B-V" t = Ok (Some c)) /\
  (forall t, 3882 <= t <= 7078 -> exists c, teff_to_color roots "B-V" t = Ok (Some c) /\ 3/10 <= c <= 15/10 /\ color_to_teff "B-V" c = Ok t) /\
  (forall c c' t t', c <= c' -> color_to_teff "B-V" c = Ok t -> color_to_teff "B-V" c' = Ok t' -> t' <= t /\ (3/10 <= c -> c' <= 15/10 -> c < c' -> t' < t)) /\
  (forall c, c <= 3/10 -> color_to_teff "B-V" c = Ok 7078) /\ (forall c, 15/10 <= c -> color_to_teff "B-V" c = Ok 3882) /\
  (forall t, t <= 3882 -> teff_to_color roots "B-V" t = Ok (Some (15/10))) /\ (forall t, 7078 <= t -> teff_to_color roots "B-V" t = Ok (Some (3/10))) /\
  (forall c t, In (c, t) sf_table -> color_to_teff "B-V" c = Ok t).
Proof.
  intros roots. change (color_to_teff "B-V") with (fun c => @Ok R (bv_to_teff c)). change (teff_to_color roots "B-V") with (fun t => @Ok (option R) (Some (teff_to_bv t))). cbv beta.
  assert (forall c t, In (c, t) sf_table -> 3/10 <= c <= 15/10) as RB. { intros c t Hin. unfold sf_table in Hin. cbn [In] in Hin. repeat (destruct Hin as [E|Hin]; [injection E as <- _; lra|]). contradiction. }
  assert (forall c, c <= 3/10 -> bv_to_teff c = 7078) as Lo by (intros; now apply interp_low).
  assert (forall c, 15/10 <= c -> bv_to_teff c = 3882) as Hi. { intros c Hc. unfold bv_to_teff. change sf_table with (removelast sf_table ++ [(15/10, 3882)]). apply interp_high; [exact sf_sorted|exact Hc]. }
  assert (forall c, 3/10 <= c <= 15/10 -> 3882 <= bv_to_teff c <= 7078 /\ teff_to_bv (bv_to_teff c) = c) as A1.
  { intros c Hc. destruct (bv_seg c Hc) as (a & u & v & b & E & H & V). destruct (sf_down _ _ _ _ E) as (D1 & D2). pose proof (line_range u v c D1 D2 H) as LR. rewrite V. split.
    - assert (In u sf_table /\ In v sf_table) as (Iu & Iv) by (rewrite E; split; apply in_app_iff; right; cbn; auto). assert (forall p, In p sf_table -> 3882 <= snd p <= 7078) as RT. { intros p Hin. unfold sf_table in Hin. cbn [In] in Hin. repeat (destruct Hin as [<-|Hin]; [cbn [snd]; lra|]). contradiction. } pose proof (RT u Iu). pose proof (RT v Iv). lra.
    - destruct (swap_seg _ _ _ _ E) as (a' & b' & E'). unfold teff_to_bv. fold sf_swap. rewrite E'. rewrite interp_seg; [apply (line_inv u v c D1 D2)|rewrite <- E'; exact sf_swap_sorted|cbn [fst]; auto]. }
  assert (forall t, 3882 <= t <= 7078 -> 3/10 <= teff_to_bv t <= 15/10 /\ bv_to_teff (teff_to_bv t) = t) as A2.
  { intros t Ht. destruct (tv_seg t Ht) as (a & u & v & b & E & H & V). destruct (sf_down _ _ _ _ E) as (D1 & D2). pose proof (line_range (snd v, fst v) (snd u, fst u) t) as LR. cbn [fst snd] in LR. rewrite V.
    assert (fst u <= line (snd v, fst v) (snd u, fst u) t <= fst v) as LR'. { clear LR. unfold line. cbn [fst snd]. assert (0 <= (t - snd v) / (snd u - snd v) <= 1) as K. { split; [apply Rdiv_le_0_compat; lra|]. apply (Rmult_le_reg_r (snd u - snd v)); [lra|]. unfold Rdiv. rewrite Rmult_assoc, Rinv_l by lra. lra. } replace ((fst u - fst v) / (snd u - snd v) * (t - snd v)) with ((fst u - fst v) * ((t - snd v) / (snd u - snd v))) by (unfold Rdiv; ring). nra. }
    split.
    - assert (In u sf_table /\ In v sf_table) as (Iu & Iv) by (rewrite E; split; apply in_app_iff; right; cbn; auto). destruct u as (uc, ut), v as (vc, vt). pose proof (RB _ _ Iu). pose proof (RB _ _ Iv). cbn [fst snd] in *. lra.
    - unfold bv_to_teff. rewrite E. rewrite interp_seg; [apply (line_inv u v t D1 D2)|rewrite <- E; exact sf_sorted|auto]. }
  assert (forall c c', 3/10 <= c -> c < c' -> c' <= 15/10 -> bv_to_teff c' < bv_to_teff c) as Mono.
  { intros c c' H1 H2 H3. 
    destruct (bv_seg c ltac:(lra)) as (a & u & v & b & E & H & V). destruct (bv_seg c' ltac:(lra)) as (a' & u' & v' & b' & E' & H' & V').
    destruct (sf_down _ _ _ _ E) as (D1 & D2). destruct (sf_down _ _ _ _ E') as (D1' & D2').
    destruct (Rle_dec c' (fst v)) as [L|L].
    - assert (bv_to_teff c' = line u v c') as ->. { unfold bv_to_teff. rewrite E. apply interp_seg; [rewrite <- E; exact sf_sorted|lra]. } rewrite V. unfold line. assert (0 < (snd u - snd v) / (fst v - fst u)) as P by (apply Rdiv_lt_0_compat; lra). replace ((snd v - snd u) / (fst v - fst u)) with (- ((snd u - snd v) / (fst v - fst u))) by (field; lra). nra.
    - pose proof (line_range u v c D1 D2 H) as LR. pose proof (line_range u' v' c' D1' D2' H') as LR'. rewrite V, V'.
      assert (StronglySorted (fun p q : R * R => fst p < fst q /\ snd q < snd p) sf_table) as S. { unfold sf_table. repeat (apply SSorted_cons; [|repeat (apply Forall_cons; [cbn [fst snd]; lra|]); apply Forall_nil]). apply SSorted_nil. }
      assert (forall p q, In p sf_table -> In q sf_table -> fst p <= fst q -> snd q <= snd p) as MT. { clear -S. induction S as [|x l S IH F]; intros p q Hp Hq Hpq; [contradiction|]. rewrite Forall_forall in F. destruct Hp as [<-|Hp], Hq as [<-|Hq]; [lra|destruct (F q Hq); lra|destruct (F p Hp); lra|auto]. }
      assert (In v sf_table /\ In u' sf_table /\ In v' sf_table) as (Iv & Iu' & Iv') by (rewrite E at 1; rewrite E' at 1 2; repeat split; apply in_app_iff; right; cbn; auto).
      assert (fst v <= fst u') as VU. { destruct (Rle_dec (fst v) (fst u')) as [|N]; [auto|exfalso]. assert (fst v < fst v') by lra. assert (forall p, In p sf_table -> fst p <= fst u' \/ fst v' <= fst p) as Gap. { rewrite E' in S |- *. clear -S. induction a' as [|x a' IH]; cbn [List.app] in *; inversion S as [|? ? S' F]; subst. - intros p [<-|[<-|Hp]]; [lra|lra|]. inversion S' as [|? ? S2 F2]; subst. rewrite Forall_forall in F2. destruct (F2 p Hp). lra. - rewrite Forall_forall in F. intros p [<-|Hp]; [left; destruct (F u'); [apply in_app_iff; right; left; auto|lra]|]. apply IH; auto. } destruct (Gap v Iv); lra. }
      pose proof (MT v u' Iv Iu' VU). assert (bv_to_teff c' <> bv_to_teff c) as NE; [|rewrite V, V' in NE; lra]. intros Q. destruct (A1 c ltac:(lra)) as (_ & Q1). destruct (A1 c' ltac:(lra)) as (_ & Q2). rewrite <- Q1, <- Q2, Q in H2. lra. }
  split; [intros c Hc; destruct (A1 c Hc) as (P1 & P2); exists (bv_to_teff c); split; [auto|]; split; [auto|congruence]|].
  split; [intros t Ht; destruct (A2 t Ht) as (P1 & P2); exists (teff_to_bv t); split; [auto|]; split; [auto|congruence]|]. split.
  { intros c c' t t' Hcc E E'. assert (t = bv_to_teff c) as -> by congruence. assert (t' = bv_to_teff c') as -> by congruence. clear E E'. split; [|intros; apply Mono; auto].
    assert (forall x, 3882 <= bv_to_teff x <= 7078) as RT. { intros x. destruct (Rle_dec x (3/10)) as [L|L]; [rewrite Lo by auto; lra|]. destruct (Rle_dec (15/10) x) as [L'|L']; [rewrite Hi by auto; lra|]. apply A1. lra. }
    destruct (Rle_dec c (3/10)) as [L|L]; [rewrite (Lo c L); apply RT|]. destruct (Rle_dec (15/10) c') as [L'|L']; [rewrite (Hi c' L'); apply RT|]. destruct (Req_EM_T c c') as [->|N]; [lra|]. left. apply Mono; lra. }
  split; [intros c Hc; now rewrite Lo|]. split; [intros c Hc; now rewrite Hi|]. split; [intros t Ht|split; [intros t Ht|]].
  - do 2 f_equal. unfold teff_to_bv, sf_table. cbn [map rev List.app fst snd]. now apply interp_low.
  - do 2 f_equal. unfold teff_to_bv. fold sf_swap. change sf_swap with (removelast sf_swap ++ [(7078, 3/10)]). apply interp_high; [exact sf_swap_sorted|exact Ht].
  - intros c t Hin. f_equal. destruct (in_split _ _ Hin) as (a & b & E). destruct b as [|q b].
    + unfold bv_to_teff. rewrite E. apply (interp_high a (c, t)); [rewrite <- E; exact sf_sorted|cbn; lra].
    + unfold bv_to_teff. rewrite E. assert (incr_fst (a ++ (c, t) :: q :: b)) as S by (rewrite <- E; exact sf_sorted). destruct (sf_down _ _ _ _ E) as (D1 & _). rewrite interp_seg; [unfold line; cbn [fst snd] in *; field; lra|exact S|cbn [fst] in *; lra].
Qed.
Print Assumptions C46_bv.
Theorem C46_other : forall roots b x, b <> "g-r"%string -> b <> "B-V"%string -> color_to_teff b x = Raise ValueError /\ teff_to_color roots b x = Raise ValueError.
Proof. intros roots b x H1 H2. apply String.eqb_neq in H1. apply String.eqb_neq in H2. unfold color_to_teff, teff_to_color. now rewrite H1, H2. Qed.
Example C46_ex : exists roots, (forall k, is_roots k (roots k)) /\ color_to_teff "g-r" 0 = Ok (Rpower 10 (3882/1000)).
Proof. destruct roots_exist as (roots & H). exists roots. split; [exact H|]. unfold color_to_teff, gr_to_teff. cbn [String.eqb Ascii.eqb Bool.eqb]. destruct (Rle_dec (-2/10) 0); [|lra]. destruct (Rle_dec 0 (9/10)); [|lra]. do 2 f_equal. unfold gr_poly. ring. Qed.
