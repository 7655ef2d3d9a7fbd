(** * BandProof: photometric bands given as tables (C125) *)
From Coq Require Import Reals List Bool String Lra Lia Psatz Permutation Sorted.
From Verif Require Import PyBase SpecModel SpecProps SpecObj PhotModel BandModel.
Import ListNotations.
Open Scope R_scope.

(** ** Maximum, minimum, sorting *)
Lemma fold_max_scale k a l : 0 < k -> fold_right Rmax (a * k) (map (fun y => y * k) l) = fold_right Rmax a l * k.
Proof.
  intros Hk. induction l as [|b l IH]; cbn [map fold_right]; [reflexivity|]. rewrite IH. set (m := fold_right Rmax a l). unfold Rmax. destruct (Rle_dec (b * k) (m * k)) as [H|H], (Rle_dec b m) as [Q|Q]; auto; exfalso.
  - apply Rmult_le_reg_r in H; auto.
  - apply H. apply Rmult_le_compat_r; lra.
Qed.
Lemma lmax_scale k l : 0 < k -> lmax (map (fun y => y * k) l) = lmax l * k.
Proof. intros Hk. destruct l as [|a l]; cbn [map lmax]; [ring|]. now apply fold_max_scale. Qed.
Lemma fold_max_ge a l : a <= fold_right Rmax a l /\ forall y, In y l -> y <= fold_right Rmax a l.
Proof.
  induction l as [|b l (IH1 & IH2)]; cbn [fold_right]; [split; [lra|intros y []]|]. pose proof (Rmax_l b (fold_right Rmax a l)). pose proof (Rmax_r b (fold_right Rmax a l)). split; [lra|]. intros y [<- |Hy]; [lra|]. specialize (IH2 y Hy). lra.
Qed.
Lemma fold_max_in a l : In (fold_right Rmax a l) (a :: l).
Proof.
  induction l as [|b l IH]; cbn [fold_right]; [now left|]. unfold Rmax at 1. destruct (Rle_dec b (fold_right Rmax a l)); [|right; now left]. destruct IH as [<- |IH]; [now left|]. right. now right.
Qed.
Lemma lmax_ge l y : In y l -> y <= lmax l.
Proof. destruct l as [|a l]; intros H; [destruct H|]. cbn [lmax]. destruct (fold_max_ge a l) as (H1 & H2). destruct H as [<- |H]; auto. Qed.
Lemma lmax_in l : l <> [] -> In (lmax l) l.
Proof. destruct l as [|a l]; intros H; [contradiction|]. cbn [lmax]. apply fold_max_in. Qed.
Lemma fold_min_le a l : fold_right Rmin a l <= a /\ forall y, In y l -> fold_right Rmin a l <= y.
Proof.
  induction l as [|b l (IH1 & IH2)]; cbn [fold_right]; [split; [lra|intros y []]|]. pose proof (Rmin_l b (fold_right Rmin a l)). pose proof (Rmin_r b (fold_right Rmin a l)). split; [lra|]. intros y [<- |Hy]; [lra|]. specialize (IH2 y Hy). lra.
Qed.
Lemma lmin_le l y : In y l -> lmin l <= y.
Proof. destruct l as [|a l]; intros H; [destruct H|]. cbn [lmin]. destruct (fold_min_le a l) as (H1 & H2). destruct H as [<- |H]; auto. Qed.
Lemma fold_min_in a l : In (fold_right Rmin a l) (a :: l).
Proof.
  induction l as [|b l IH]; cbn [fold_right]; [now left|]. unfold Rmin at 1. destruct (Rle_dec b (fold_right Rmin a l)); [right; now left|]. destruct IH as [<- |IH]; [now left|]. right. now right.
Qed.
Lemma lmin_in l : l <> [] -> In (lmin l) l.
Proof. destruct l as [|a l]; intros H; [contradiction|]. cbn [lmin]. apply fold_min_in. Qed.
Section Sort.
Context {A B : Type}.
Lemma insx_perm (p : R * A) l : Permutation (insx p l) (p :: l).
Proof. induction l as [|q l IH]; cbn [insx]; [apply Permutation_refl|]. destruct (Rle_dec (fst p) (fst q)); [apply Permutation_refl|]. eapply perm_trans; [apply perm_skip, IH|]. apply perm_swap. Qed.
Lemma sortx_perm (l : list (R * A)) : Permutation (sortx l) l.
Proof. unfold sortx. induction l as [|p l IH]; cbn [fold_right]; [constructor|]. eapply perm_trans; [apply insx_perm|]. now apply perm_skip. Qed.
Lemma insx_sorted (p : R * A) l : StronglySorted (fun a b => fst a <= fst b) l -> StronglySorted (fun a b => fst a <= fst b) (insx p l).
Proof.
  induction l as [|q l IH]; intros H; cbn [insx]; [repeat constructor|]. inversion H as [|? ? H1 H2]; subst. destruct (Rle_dec (fst p) (fst q)) as [L|L].
  - constructor; [exact H|]. constructor; [exact L|]. eapply List.Forall_impl; [|exact H2]. intros a Ha. cbn beta in *. lra.
  - constructor; [now apply IH|]. eapply Permutation_Forall; [apply Permutation_sym, insx_perm|]. constructor; [cbn beta; lra|exact H2].
Qed.
Lemma sortx_sorted (l : list (R * A)) : StronglySorted (fun a b => fst a <= fst b) (sortx l).
Proof. unfold sortx. induction l as [|p l IH]; cbn [fold_right]; [constructor|]. now apply insx_sorted. Qed.
Lemma insx_map (g : R * A -> B) p l : insx (fst p, g p) (map (fun q => (fst q, g q)) l) = map (fun q => (fst q, g q)) (insx p l).
Proof. induction l as [|q l IH]; cbn [map insx fst]; [reflexivity|]. destruct (Rle_dec (fst p) (fst q)); cbn [map]; [reflexivity|]. now rewrite IH. Qed.
Lemma sortx_map (g : R * A -> B) l : sortx (map (fun q => (fst q, g q)) l) = map (fun q => (fst q, g q)) (sortx l).
Proof. unfold sortx. induction l as [|p l IH]; cbn [map fold_right]; [reflexivity|]. rewrite IH. apply insx_map. Qed.
End Sort.

(** ** The constructor *)
(** the response of a table: shifted up if it is ever negative, divided by its maximum *)
Definition low_end (S : list R) : R := Rmin 0 (lmin S).
Definition response (S : list R) (s : R) : R := (s - low_end S) / (lmax S - low_end S).
Lemma lmin_perm l l' : Permutation l l' -> lmin l = lmin l'.
Proof.
  intros P. destruct l as [|a l]; [apply Permutation_nil in P; now subst|]. assert (N : a :: l <> []) by discriminate. assert (N' : l' <> []). { intros ->. apply Permutation_sym, Permutation_nil in P. discriminate. }
  pose proof (lmin_le _ _ (Permutation_in _ P (lmin_in _ N))). pose proof (lmin_le _ _ (Permutation_in _ (Permutation_sym P) (lmin_in _ N'))). lra.
Qed.
Lemma lmax_perm l l' : Permutation l l' -> lmax l = lmax l'.
Proof.
  intros P. destruct l as [|a l]; [apply Permutation_nil in P; now subst|]. assert (N : a :: l <> []) by discriminate. assert (N' : l' <> []). { intros ->. apply Permutation_sym, Permutation_nil in P. discriminate. }
  pose proof (lmax_ge _ _ (Permutation_in _ P (lmax_in _ N))). pose proof (lmax_ge _ _ (Permutation_in _ (Permutation_sym P) (lmax_in _ N'))). lra.
Qed.
Lemma fold_max_shift m a l : fold_right Rmax (a - m) (map (fun y => y - m) l) = fold_right Rmax a l - m.
Proof. induction l as [|b l IH]; cbn [map fold_right]; [reflexivity|]. rewrite IH. set (t := fold_right Rmax a l). unfold Rmax. destruct (Rle_dec (b - m) (t - m)) as [H|H], (Rle_dec b t) as [Q|Q]; lra. Qed.
Lemma lmax_shift m l : l <> [] -> lmax (map (fun y => y - m) l) = lmax l - m.
Proof. destruct l as [|a l]; intros H; [contradiction|]. cbn [map lmax]. apply fold_max_shift. Qed.
Lemma combine_snd' (x S : list R) : List.length x = List.length S -> map snd (combine x S) = S.
Proof. revert S. induction x as [|a x IH]; intros [|b S] E; cbn [List.length] in E; try discriminate; [reflexivity|]. cbn [combine map snd]. now rewrite IH by lia. Qed.
Lemma fsts_sorted (l : list (R * R)) : StronglySorted (fun a b => fst a <= fst b) l -> StronglySorted Rle (map fst l).
Proof.
  intros Q. induction Q as [|a l Q IH F]; cbn [map]; constructor; [exact IH|]. apply Forall_forall. intros y Hy. apply in_map_iff in Hy. destruct Hy as (q & <- & Hq). rewrite Forall_forall in F. now apply F.
Qed.
Lemma combine_map_snd (g : R -> R) x : forall S, map (fun q : R * R => (fst q, g (snd q))) (combine x S) = combine x (map g S).
Proof. induction x as [|a x IH]; intros [|s S]; cbn [combine map fst snd]; auto. now rewrite IH. Qed.
(** A band made from x and S of equal length: its points are those of the table, sorted by x, with the response shifted
    and (if asked for) divided by its maximum; a normalised response lies between 0 and 1 and reaches 1. *)
Lemma made x S cp n u b : List.length x = List.length S -> x <> [] -> newArrayBand x S cp n u = Ok b ->
  strToUnit u = Ok (bunit b) /\ bnorm b = n /\ zpt b = 1 /\ bN b = lmax S - low_end S /\ moments (pts b) = (cen b, Ok (fwhm b)) /\
  pts b = map (fun q => (fst q, if n then response S (snd q) else snd q - low_end S)) (sortx (combine x S)).
Proof.
  intros L Nx H. unfold newArrayBand in H. rewrite L, Nat.ltb_irrefl in H. cbv zeta in H. assert (Ps : Permutation (map snd (sortx (combine x S))) S). { rewrite <- (combine_snd' x S L) at 2. apply Permutation_map, sortx_perm. }
  assert (NS : S <> []) by (intros ->; destruct x; [contradiction|discriminate]). assert (Ns : map snd (sortx (combine x S)) <> []). { intros E. rewrite E in Ps. apply Permutation_nil in Ps. contradiction. }
  set (p := sortx (combine x S)) in *. rewrite (lmin_perm _ _ Ps) in H. set (p1 := if lt_ (lmin S) 0 then map (fun q => (fst q, snd q - lmin S)) p else p) in *.
  assert (E1 : p1 = map (fun q => (fst q, snd q - low_end S)) p).
  { unfold p1, lt_, low_end, Rmin. destruct (Rlt_dec (lmin S) 0) as [Q|Q], (Rle_dec 0 (lmin S)) as [Q'|Q']; try lra; [reflexivity|]. transitivity (map (fun q : R * R => q) p); [now rewrite map_id|]. apply map_ext. intros (a, y). cbn [fst snd]. now rewrite Rminus_0_r. }
  assert (EN : lmax (map snd p1) = lmax S - low_end S). { rewrite E1, map_map. cbn [snd]. rewrite <- (map_map snd (fun y => y - low_end S)). rewrite lmax_shift by exact Ns. now rewrite (lmax_perm _ _ Ps). }
  rewrite EN in H. match type of H with context [moments ?t] => set (p2 := t) in * end.
  destruct (moments p2) as (cn, [w|e|]) eqn:Em; try discriminate. destruct (strToUnit u) as [v|e|] eqn:Eu; try discriminate. injection H as <-. cbn [bunit bnorm zpt bN pts cen fwhm].
  split; [reflexivity|]. split; [reflexivity|]. split; [reflexivity|]. split; [reflexivity|]. split; [exact Em|]. unfold p2. rewrite E1. destruct n; [|reflexivity]. rewrite map_map. reflexivity.
Qed.
Theorem C125_made : forall x S cp n u b, List.length x = List.length S -> x <> [] -> newArrayBand x S cp n u = Ok b ->
  strToUnit u = Ok (bunit b) /\ StronglySorted Rle (map fst (pts b)) /\ Permutation (pts b) (combine x (map (fun s => if n then response S s else s - low_end S) S)).
Proof.
  intros x S cp n u b L Nx H. destruct (made x S cp n u b L Nx H) as (Eu & _ & _ & _ & _ & Ep). split; [exact Eu|]. rewrite Ep. split.
  - rewrite map_map. cbn [fst]. apply (fsts_sorted _ (sortx_sorted (combine x S))).
  - eapply perm_trans; [apply Permutation_map, sortx_perm|]. rewrite (combine_map_snd (fun s => if n then response S s else s - low_end S)). apply Permutation_refl.
Qed.
Lemma response_bounds S s : low_end S < lmax S -> In s S -> 0 <= response S s <= 1.
Proof.
  intros P Hs. pose proof (lmin_le S s Hs). pose proof (lmax_ge S s Hs). pose proof (Rmin_r 0 (lmin S)). unfold response. fold (low_end S) in *. set (m := low_end S) in *. assert (D : 0 < lmax S - m) by lra. split.
  - apply Rmult_le_pos; [lra|]. left. now apply Rinv_0_lt_compat.
  - apply (Rmult_le_reg_r (lmax S - m)); [exact D|]. unfold Rdiv. rewrite Rmult_assoc, Rinv_l by lra. lra.
Qed.
Theorem C125_response : forall x S cp u b, List.length x = List.length S -> x <> [] -> low_end S < lmax S -> newArrayBand x S cp true u = Ok b ->
  (forall q, In q (pts b) -> 0 <= snd q <= 1) /\ exists q, In q (pts b) /\ snd q = 1.
Proof.
  intros x S cp u b L Nx P H. destruct (made x S cp true u b L Nx H) as (_ & _ & _ & _ & _ & Ep). rewrite Ep. assert (Ps : Permutation (map snd (sortx (combine x S))) S). { rewrite <- (combine_snd' x S L) at 2. apply Permutation_map, sortx_perm. }
  split.
  - intros q Hq. apply in_map_iff in Hq. destruct Hq as (r & <- & Hr). cbn [snd]. apply response_bounds; [exact P|]. apply (Permutation_in _ Ps). now apply in_map.
  - assert (NS : S <> []) by (intros ->; destruct x; [contradiction|discriminate]). pose proof (Permutation_in _ (Permutation_sym Ps) (lmax_in S NS)) as I. apply in_map_iff in I. destruct I as (r & Er & Hr).
    exists (fst r, response S (snd r)). split; [apply in_map_iff; exists r; auto|]. cbn [snd]. rewrite Er. unfold response. field. lra.
Qed.
(** Refuted: the shapes are not compared. *)
Theorem C125_shapes_refuted : (forall x S cp n u, (List.length S < List.length x)%nat -> newArrayBand x S cp n u = Raise IndexError) /\
  (forall x S more cp n u, List.length S = List.length x -> newArrayBand x (S ++ more) cp n u = newArrayBand x S cp n u).
Proof.
  split.
  - intros x S cp n u H. unfold newArrayBand. now apply Nat.ltb_lt in H as ->.
  - intros x S more cp n u L. unfold newArrayBand. rewrite app_length, L. replace (List.length x + List.length more <? List.length x)%nat with false by (symmetry; apply Nat.ltb_ge; lia). rewrite Nat.ltb_irrefl.
    replace (combine x (S ++ more)) with (combine x S); [reflexivity|]. revert S L. induction x as [|a x IH]; intros [|s S] L; cbn [List.length] in L; try discriminate; [destruct more; reflexivity|]. cbn [app combine]. now rewrite <- IH by lia.
Qed.
(** Refuted: the width of a triangle with base 2 is 3/2, and one whose samples meet one half exactly cannot be made. *)
Ltac decide_all := repeat (match goal with |- context [Rlt_dec ?a ?b] => destruct (Rlt_dec a b); try lra | |- context [Rle_dec ?a ?b] => destruct (Rle_dec a b); try lra | |- context [Req_EM_T ?a ?b] => destruct (Req_EM_T a b); try lra end).
Ltac mm := repeat (match goal with |- context [Rmin ?a ?b] => first [rewrite (Rmin_left a b) by lra | rewrite (Rmin_right a b) by lra] | |- context [Rmax ?a ?b] => first [rewrite (Rmax_left a b) by lra | rewrite (Rmax_right a b) by lra] end); try reflexivity; try lra.
Lemma triangle_moments : moments [(1, 0); (2, 1); (3, 0)] = (2, Ok (3 / 2)).
Proof.
  assert (Em : lmax (map snd [(1, 0); (2, 1); (3, 0)]) = 1). { cbn [map snd lmax fold_right]. mm. }
  unfold moments. rewrite Em. cbn [map fst snd hd last]. unfold scale_y. cbn [map fst snd]. unfold simps. cbn [List.length Nat.odd Nat.even negb basic].
  assert (C : forall k, (2 - 1 + (3 - 2)) / 6 * (1 * (0 / 1 * k) * (2 - (3 - 2) / (2 - 1)) + 2 * (1 / 1 * k) * ((2 - 1 + (3 - 2)) * (2 - 1 + (3 - 2)) / ((2 - 1) * (3 - 2))) + 3 * (0 / 1 * k) * (2 - (2 - 1) / (3 - 2))) + 0 = 8 / 3 * k) by (intros k; field).
  apply (f_equal2 pair).
  - change (Nat.odd 3) with true. cbn iota. rewrite C. field.
  - unfold lt_. destruct (Rlt_dec (1 / 2) (0 / 1)); [lra|]. cbn [orb crossings fst snd app]. unfold lt_. destruct (Rlt_dec ((0 / 1 - 1 / 2) * (0 / 1 - 1 / 2)) 0); [lra|]. destruct (Rlt_dec ((1 / 1 - 1 / 2) * (0 / 1 - 1 / 2)) 0); [|lra]. destruct (Rlt_dec ((0 / 1 - 1 / 2) * (1 / 1 - 1 / 2)) 0); [|lra].
    cbn [app fst snd]. f_equal. unfold interp2. decide_all.
Qed.
Theorem C125_width_refuted : exists b, newArrayBand [1; 2; 3] [0; 1; 0] true true "angstroms" = Ok b /\ cen b = 2 /\ fwhm b = 3 / 2 /\ fwhm b <> 1.
Proof.
  unfold newArrayBand. cbn [List.length Nat.ltb Nat.leb]. cbv zeta. replace (sortx (combine [1; 2; 3] [0; 1; 0])) with [(1, 0); (2, 1); (3, 0)].
  - cbn [map snd]. replace (lmin [0; 1; 0]) with 0 by (cbn [lmin fold_right]; mm). unfold lt_. destruct (Rlt_dec 0 0); [lra|]. cbn [map snd fst]. replace (lmax [0; 1; 0]) with 1 by (cbn [lmax fold_right]; mm).
    replace [(1, 0 / 1); (2, 1 / 1); (3, 0 / 1)] with [(1, 0); (2, 1); (3, 0)] by (replace (0 / 1) with 0 by field; replace (1 / 1) with 1 by field; reflexivity).
    rewrite triangle_moments. change (strToUnit "angstroms") with (@Ok unit_ UAng). cbn iota. eexists. split; [reflexivity|]. cbn [cen fwhm]. split; [reflexivity|]. split; [reflexivity|lra].
  - unfold sortx. cbn [combine fold_right insx fst]. decide_all. cbn [insx fst]. decide_all. reflexivity.
Qed.
Theorem C125_halves_refuted : newArrayBand [1; 2; 3; 4; 5] [0; 1/2; 1; 1/2; 0] true true "angstroms" = Raise IndexError.
Proof.
  unfold newArrayBand. cbn [List.length Nat.ltb Nat.leb]. cbv zeta. replace (sortx (combine [1; 2; 3; 4; 5] [0; 1/2; 1; 1/2; 0])) with [(1, 0); (2, 1/2); (3, 1); (4, 1/2); (5, 0)].
  - cbn [map snd]. replace (lmin [0; 1/2; 1; 1/2; 0]) with 0 by (cbn [lmin fold_right]; mm). unfold lt_. destruct (Rlt_dec 0 0); [lra|]. cbn [map snd fst]. replace (lmax [0; 1/2; 1; 1/2; 0]) with 1 by (cbn [lmax fold_right]; mm).
    replace [(1, 0 / 1); (2, 1 / 2 / 1); (3, 1 / 1); (4, 1 / 2 / 1); (5, 0 / 1)] with [(1, 0); (2, 1/2); (3, 1); (4, 1/2); (5, 0)] by (replace (0 / 1) with 0 by field; replace (1 / 1) with 1 by field; replace (1 / 2 / 1) with (1 / 2) by field; reflexivity).
    unfold moments. cbn [map snd]. replace (lmax [0; 1/2; 1; 1/2; 0]) with 1 by (cbn [lmax fold_right]; mm). cbn [map fst snd hd last]. unfold lt_. destruct (Rlt_dec (1 / 2) (0 / 1)); [lra|]. cbn [orb crossings fst snd].
    unfold lt_. destruct (Rlt_dec ((0 / 1 - 1 / 2) * (0 / 1 - 1 / 2)) 0); [lra|]. destruct (Rlt_dec ((1 / 2 / 1 - 1 / 2) * (0 / 1 - 1 / 2)) 0); [lra|]. destruct (Rlt_dec ((1 / 1 - 1 / 2) * (1 / 2 / 1 - 1 / 2)) 0); [lra|]. destruct (Rlt_dec ((1 / 2 / 1 - 1 / 2) * (1 / 1 - 1 / 2)) 0); [lra|].
    destruct (Rlt_dec ((0 / 1 - 1 / 2) * (1 / 2 / 1 - 1 / 2)) 0); [lra|]. reflexivity.
  - unfold sortx. cbn [combine fold_right insx fst]. decide_all. cbn [insx fst]. decide_all. cbn [insx fst]. decide_all. cbn [insx fst]. decide_all. reflexivity.
Qed.
(** Refuted: the normalisation cannot be changed; without copies on access the failed change alters the response. *)
Theorem C125_norm_refuted : forall b, snd (setNorm b (negb (bnorm b))) = Raise AttributeError /\ (bcopy b = true -> fst (setNorm b (negb (bnorm b))) = b) /\
  (bcopy b = false -> bnorm b = true -> pts (fst (setNorm b false)) = scale_y (bN b) (pts b) /\ bnorm (fst (setNorm b false)) = true).
Proof.
  intros b. unfold setNorm. replace (Bool.eqb (negb (bnorm b)) (bnorm b)) with false by (now destruct (bnorm b)). destruct (bcopy b); split; try reflexivity; split; try reflexivity; try discriminate. intros _ Hn. rewrite Hn. split; reflexivity.
Qed.

(** ** Units *)
Section Units.
Variables c h ergperev : R.
Hypothesis Hc : 0 < c.
Hypothesis Hh : 0 < h.
Hypothesis He : 0 < ergperev.
Notation xtrans := (xtrans c h ergperev).
Notation xftrans := (xftrans c h ergperev).
Notation setBUnit := (setBUnit c h ergperev).
(** A normalised band, as the constructor makes it from values of x that are not 0. *)
Definition whole (b : band) : Prop := bnorm b = true /\ lmax (map snd (pts b)) = 1 /\ List.Forall (fun q => fst q <> 0) (pts b) /\ moments (pts b) = (cen b, Ok (fwhm b)).
Theorem C125_whole : forall x S cp u b, List.length x = List.length S -> x <> [] -> List.Forall (fun a => a <> 0) x -> low_end S < lmax S -> newArrayBand x S cp true u = Ok b -> whole b.
Proof.
  intros x S cp u b L Nx F P H. destruct (made x S cp true u b L Nx H) as (_ & En & _ & _ & Em & Ep). destruct (C125_response x S cp u b L Nx P H) as (B & (q & Iq & Eq)). split; [exact En|]. split; [|split; [|exact Em]].
  - assert (N : map snd (pts b) <> []) by (intros E; apply map_eq_nil in E; rewrite E in Iq; destruct Iq). pose proof (lmax_in _ N) as I. apply in_map_iff in I. destruct I as (r & Er & Ir). specialize (B r Ir). pose proof (lmax_ge _ _ (in_map snd _ _ Iq)). lra.
  - apply Forall_forall. intros r Hr. rewrite Ep in Hr. apply in_map_iff in Hr. destruct Hr as (t & <- & Ht). cbn [fst]. apply (Permutation_in _ (sortx_perm _)) in Ht. destruct t as (a, s). apply in_combine_l in Ht. rewrite Forall_forall in F. now apply F.
Qed.
Definition turned (u v : unit_) (k : R) (p : R * R) : R * R := (fst (xftrans u v p), snd (xftrans u v p) * k).
Lemma xf_k u v x fl k : snd (xftrans u v (x, fl * k)) = snd (xftrans u v (x, fl)) * k.
Proof. unfold SpecModel.xftrans. destruct (ptype u), (ptype v); cbn [conv fst snd]; unfold Rdiv; ring. Qed.
Lemma xf_x u v x f1 f2 : fst (xftrans u v (x, f1)) = fst (xftrans u v (x, f2)).
Proof. unfold SpecModel.xftrans. destruct (ptype u), (ptype v); reflexivity. Qed.
Lemma turned_twice u v w k k' p : fst p <> 0 -> turned v w k' (turned u v k p) = turned u w (k * k') p.
Proof.
  intros N. destruct p as (x, s). cbn [fst] in N. unfold turned at 1. unfold turned at 1 2. rewrite xf_k. rewrite (xf_x _ _ _ _ (snd (xftrans u v (x, s)))). rewrite <- surjective_pairing. rewrite (xf_compose c h ergperev Hc Hh He) by exact N. unfold turned. apply (f_equal2 pair); ring.
Qed.
Lemma turned_same u k p : turned u u k p = (fst p, snd p * k).
Proof. destruct p as (x, s). unfold turned. now rewrite (xf_id c h ergperev He). Qed.
Lemma factor u v x : x <> 0 -> exists K, 0 < K /\ forall fl, snd (xftrans u v (x, fl)) = fl * K.
Proof.
  intros N. destruct (forms c h ergperev Hc Hh He u v) as [(k & Hk & _ & E)|(k & Hk & _ & E)].
  - exists (x * x / k). split; [apply Rdiv_lt_0_compat; [nra|exact Hk]|]. intros fl. rewrite E by exact N. cbn [snd]. field. lra.
  - exists (/ k). split; [now apply Rinv_0_lt_compat|]. intros fl. rewrite E. reflexivity.
Qed.
(** One change of unit of a normalised band: each point goes to the same photons, the responses are those of a flux
    density, all divided by one positive number so that the largest is 1 again. *)
Lemma step b n b' : whole b -> setBUnit b n = (b', Ok tt) -> exists k, 0 < k /\ pts b' = map (turned (bunit b) (bunit b') k) (pts b) /\ whole b' /\ zpt b' = zpt b /\ bN b' = bN b /\ bcopy b' = bcopy b /\ bunit b' = (match strToUnit n with Ok v => v | _ => bunit b end).
Proof.
  intros W H. pose proof W as (Wn & Wm & Wx & Wc). unfold BandModel.setBUnit in H. destruct (strToUnit n) as [v|e|] eqn:En; try discriminate. destruct (unit_eqb v (bunit b)) eqn:Ev.
  - injection H as <-. apply unit_eqb_eq in Ev. subst v. exists 1. split; [lra|]. split; [|repeat (split; auto)]. transitivity (map (fun q : R * R => q) (pts b)); [now rewrite map_id|]. apply map_ext. intros (a, s). rewrite turned_same. cbn [fst snd]. now rewrite Rmult_1_r.
  - rewrite Wn in H. set (p := map (xftrans (bunit b) v) (pts b)) in *. set (mx := lmax (map snd p)) in *. destruct (moments (map (fun q => (fst q, snd q / mx)) p)) as (cn, [w|e|]) eqn:Em; try discriminate. injection H as <-. cbn [pts bunit zpt bN bcopy].
    assert (Pm : 0 < mx).
    { assert (Ne : map snd (pts b) <> []). { intros E. rewrite E in Wm. cbn [lmax] in Wm. lra. } pose proof (lmax_in _ Ne) as I. rewrite Wm in I. apply in_map_iff in I. destruct I as ((x, s) & Es & Iq). cbn [snd] in Es. subst s. rewrite Forall_forall in Wx. pose proof (Wx _ Iq) as Nx. cbn [fst] in Nx.
      destruct (factor (bunit b) v x Nx) as (K & PK & EK). specialize (EK 1). assert (In (snd (xftrans (bunit b) v (x, 1))) (map snd p)). { unfold p. rewrite map_map. apply in_map_iff. exists (x, 1). auto. } pose proof (lmax_ge _ _ H). fold mx in H0. lra. }
    assert (Ep : map (fun q : R * R => (fst q, snd q / mx)) p = map (turned (bunit b) v (/ mx)) (pts b)) by (unfold p; rewrite map_map; reflexivity).
    exists (/ mx). split; [now apply Rinv_0_lt_compat|]. split; [exact Ep|]. split; [|repeat (split; [reflexivity|]); reflexivity]. split; [reflexivity|]. cbn [pts cen fwhm]. split; [|split; [|exact Em]].
    + replace (map snd (map (fun q : R * R => (fst q, snd q / mx)) p)) with (map (fun y => y * / mx) (map snd p)) by (rewrite !map_map; reflexivity). rewrite lmax_scale by (now apply Rinv_0_lt_compat). fold mx. field. lra.
    + rewrite Ep. apply Forall_forall. intros q Hq. apply in_map_iff in Hq. destruct Hq as ((x, s) & <- & Hq). rewrite Forall_forall in Wx. specialize (Wx _ Hq). cbn [fst] in Wx. unfold turned. cbn [fst]. rewrite (xf_fst c h ergperev Hc Hh He) by exact Wx. now apply (xtrans_nz c h ergperev Hc Hh He).
Qed.
(** a history of assignments to unit; names that are not units (ValueError) change nothing *)
Fixpoint units_set (names : list string) (b : band) : option band :=
  match names with
  | [] => Some b
  | n :: r => match setBUnit b n with (b', Ok _) => units_set r b' | (b', Raise ValueError) => units_set r b' | _ => None end
  end.
Lemma history names : forall b b', whole b -> units_set names b = Some b' -> exists k, 0 < k /\ pts b' = map (turned (bunit b) (bunit b') k) (pts b) /\ whole b' /\ zpt b' = zpt b /\ bN b' = bN b /\ bcopy b' = bcopy b.
Proof.
  induction names as [|n names IH]; intros b b' W H; cbn [units_set] in H.
  - injection H as <-. exists 1. split; [lra|]. split; [|auto]. transitivity (map (fun q : R * R => q) (pts b)); [now rewrite map_id|]. apply map_ext. intros (a, s). rewrite turned_same. cbn [fst snd]. now rewrite Rmult_1_r.
  - destruct (setBUnit b n) as (b1, [[]|e|]) eqn:E1; try discriminate.
    + destruct (step b n b1 W E1) as (k & Pk & Ek & W1 & Z1 & N1 & C1 & _). destruct (IH b1 b' W1 H) as (k' & Pk' & Ek' & W' & Z' & N' & C'). exists (k * k'). split; [now apply Rmult_lt_0_compat|]. split; [|repeat (split; [congruence || exact W'|]); congruence].
      rewrite Ek', Ek, map_map. pose proof W as (_ & _ & Wx & _). apply map_ext_in. intros p Hp. apply turned_twice. rewrite Forall_forall in Wx. now apply Wx.
    + assert (E : b1 = b \/ exists v, strToUnit n = Ok v).
      { unfold BandModel.setBUnit in E1. destruct (strToUnit n) as [v|e'|]; [right; eauto| |]; left; congruence. }
      destruct E as [-> |(v & Ev)]; [destruct e; try discriminate; now apply IH|]. exfalso. unfold BandModel.setBUnit in E1. rewrite Ev in E1. destruct (unit_eqb v (bunit b)); [discriminate|]. destruct (moments _) as (cn, [w|e'|]) eqn:Em in E1; try discriminate. injection E1 as _ ->.
      assert (R0 : forall p z, snd (moments p) = Raise z -> z = IndexError). { intros p z Q. unfold moments in Q. cbn [snd] in Q. destruct (_ || _) in Q; [discriminate|]. destruct (crossings _ _) as [|(?, ?) [|(?, ?) ?]] in Q; congruence. }
      pose proof (R0 _ e ltac:(rewrite Em; reflexivity)) as ->. discriminate.
Qed.
(** Any history of changes of unit of a normalised band that ends in the original unit gives the band back: x, response,
    centre, width, zero point.  In any other unit every point is the same photons. *)
Theorem C125_units_return : forall names b b', whole b -> units_set names b = Some b' -> bunit b' = bunit b -> b' = b.
Proof.
  intros names b b' W H Hu. destruct (history names b b' W H) as (k & Pk & Ek & W' & Z & N & C). destruct W as (Wn & Wm & Wx & Wc). destruct W' as (Wn' & Wm' & Wx' & Wc').
  assert (E : map (turned (bunit b) (bunit b') k) (pts b) = scale_y k (pts b)) by (unfold scale_y; rewrite Hu; apply map_ext; intros; apply turned_same). rewrite E in Ek.
  assert (k = 1). { rewrite Ek in Wm'. unfold scale_y in Wm'. rewrite map_map in Wm'. cbn [snd] in Wm'. rewrite <- (map_map snd (fun y => y * k)) in Wm'. rewrite lmax_scale, Wm in Wm' by exact Pk. lra. }
  subst k. assert (Ep : pts b' = pts b). { rewrite Ek. unfold scale_y. transitivity (map (fun q : R * R => q) (pts b)); [|now rewrite map_id]. apply map_ext. intros (a, s). cbn [fst snd]. now rewrite Rmult_1_r. }
  rewrite Ep in Wc'. rewrite Wc in Wc'. injection Wc' as Ec Ew. clear - Wn Wn' Z N C Hu Ep Ec Ew. destruct b as [b1 b2 b3 b4 b5 b6 b7 b8], b' as [d1 d2 d3 d4 d5 d6 d7 d8]. cbn [pts bunit bnorm bN bcopy cen fwhm zpt] in *. congruence.
Qed.
Theorem C125_same_photons : forall names b b', whole b -> units_set names b = Some b' -> map fst (pts b') = map (xtrans (bunit b) (bunit b')) (map fst (pts b)) /\ zpt b' = zpt b.
Proof.
  intros names b b' W H. destruct (history names b b' W H) as (k & Pk & Ek & W' & Z & _). split; [|exact Z]. rewrite Ek, !map_map. destruct W as (_ & _ & Wx & _). apply map_ext_in. intros (x, s) Hp. unfold turned. cbn [fst]. apply (xf_fst c h ergperev Hc Hh He). rewrite Forall_forall in Wx. now apply (Wx (x, s)).
Qed.
(** Refuted: the response at given photons does not depend on the unit (from angstrom to Hz it gains a factor of the square of the wavelength). *)
Theorem C125_response_unit_refuted : forall b b' x1 x2, whole b -> bunit b = UAng -> In (x1, 1) (pts b) -> In (x2, 1) (pts b) -> 0 < x1 < x2 -> setBUnit b "hz" = (b', Ok tt) ->
  exists s1 s2, In (xtrans UAng UHz x1, s1) (pts b') /\ In (xtrans UAng UHz x2, s2) (pts b') /\ s1 / s2 = (x1 / x2) ^ 2 /\ s1 < s2.
Proof.
  intros b b' x1 x2 W U I1 I2 Hx H. destruct (step b "hz" b' W H) as (k & Pk & Ek & _ & _ & _ & _ & Ub). change (strToUnit "hz") with (@Ok unit_ UHz) in Ub. cbn iota in Ub. rewrite U, Ub in Ek.
  assert (F : forall x, x <> 0 -> snd (xftrans UAng UHz (x, 1)) = x * x * (/ (10 ^ 8) / c)). { intros x N. unfold SpecModel.xftrans. cbn [ptype conv snd fst scale]. field. lra. }
  exists (snd (xftrans UAng UHz (x1, 1)) * k), (snd (xftrans UAng UHz (x2, 1)) * k). rewrite Ek.
  split; [apply in_map_iff; exists (x1, 1); split; [|exact I1]; unfold turned; now rewrite (xf_fst c h ergperev Hc Hh He) by lra|]. split; [apply in_map_iff; exists (x2, 1); split; [|exact I2]; unfold turned; now rewrite (xf_fst c h ergperev Hc Hh He) by lra|].
  rewrite !F by lra. assert (Q : 0 < / 10 ^ 8 / c). { apply Rdiv_lt_0_compat; [apply Rinv_0_lt_compat; lra|exact Hc]. } set (z := / 10 ^ 8 / c) in *. clearbody z. split.
  - field. repeat split; lra.
  - apply Rmult_lt_compat_r; [exact Pk|]. apply Rmult_lt_compat_r; [exact Q|]. nra.
Qed.
(** Refuted: an unnormalised band keeps its scale; after a change of unit its largest response is 1/N instead of N. *)
Theorem C125_unnormalised_refuted : forall b n v b', bnorm b = false -> 0 < bN b -> lmax (map snd (pts b)) = bN b -> List.Forall (fun q => fst q <> 0) (pts b) -> strToUnit n = Ok v -> v <> bunit b -> setBUnit b n = (b', Ok tt) -> lmax (map snd (pts b')) = 1 / bN b.
Proof.
  intros b n v b' Hn PN Em F En Nv H. unfold BandModel.setBUnit in H. rewrite En in H. destruct (unit_eqb v (bunit b)) eqn:Ev; [apply unit_eqb_eq in Ev; contradiction|]. rewrite Hn in H. set (p := map (xftrans (bunit b) v) (pts b)) in *. set (mx := lmax (map snd p)) in *.
  destruct (moments _) as (cn, [w|e|]) in H; try discriminate. injection H as <-. cbn [pts]. rewrite !map_map. cbn [snd].
  assert (Pm : 0 < mx).
  { assert (Ne : map snd (pts b) <> []). { intros E. rewrite E in Em. cbn [lmax] in Em. lra. } pose proof (lmax_in _ Ne) as I. rewrite Em in I. apply in_map_iff in I. destruct I as ((x, s) & Es & Iq). cbn [snd] in Es. subst s. rewrite Forall_forall in F. pose proof (F _ Iq) as Nx. cbn [fst] in Nx.
    destruct (factor (bunit b) v x Nx) as (K & PK & EK). specialize (EK (bN b)). assert (In (snd (xftrans (bunit b) v (x, bN b))) (map snd p)). { unfold p. rewrite map_map. apply in_map_iff. exists (x, bN b). auto. } pose proof (lmax_ge _ _ H). fold mx in H0. nra. }
  unfold p at 1. rewrite map_map. replace (map (fun x => snd (xftrans (bunit b) v x) / mx / bN b) (pts b)) with (map (fun y => y * (/ mx * / bN b)) (map snd p)).
  - rewrite lmax_scale; [|apply Rmult_lt_0_compat; now apply Rinv_0_lt_compat]. fold mx. field. lra.
  - unfold p. rewrite !map_map. apply map_ext. intros q. unfold Rdiv. ring.
Qed.
(** ** Comparison *)
(** Comparing normalised bands leaves the other band as it was, and compares the centres in the unit of the first. *)
Theorem C125_compare : forall rel a b o r, whole b -> compare c h ergperev rel a b = (o, Ok (Some r)) -> o = b /\ exists b', setBUnit b (unit_name (bunit a)) = (b', Ok tt) /\ bunit b' = bunit a /\ r = rel (cen a) (cen b').
Proof.
  intros rel a b o r W H. unfold compare in H. destruct (setBUnit b (unit_name (bunit a))) as (b1, r1) eqn:E1. destruct (setBUnit b1 (unit_name (bunit b))) as (b2, r2) eqn:E2. destruct r2 as [[]|e|]; try discriminate. destruct r1 as [[]|e|]; try discriminate. injection H as <- <-.
  destruct (step b _ b1 W E1) as (k & _ & _ & W1 & _ & _ & _ & U1). destruct (step b1 _ b2 W1 E2) as (k2 & _ & _ & W2 & _ & _ & _ & U2). split.
  - apply (C125_units_return [unit_name (bunit a); unit_name (bunit b)] b); [exact W| |].
    + cbn [units_set]. now rewrite E1, E2.
    + rewrite U2. unfold BandModel.setBUnit in E2. destruct (bunit b); try reflexivity; discriminate.
  - exists b1. split; [reflexivity|]. split; [|reflexivity]. rewrite U1. unfold BandModel.setBUnit in E1. destruct (bunit a); try reflexivity; discriminate.
Qed.
(** Refuted: a < b and b < a are exclusive: for two flat bands of two points, one in angstrom and one, of lower frequency, in Hz, both hold. *)
Lemma two_moments x0 x1 s0 s1 : 0 < s0 -> 0 < s1 -> x0 <> x1 -> (s0 = 1 \/ s1 = 1) -> s0 <= 1 -> s1 <= 1 -> exists w, moments [(x0, s0); (x1, s1)] = ((s0 * x0 + s1 * x1) / (s0 + s1), Ok w).
Proof.
  intros P0 P1 N E L0 L1. unfold moments. cbn [map snd]. replace (lmax [s0; s1]) with 1. 2: { cbn [lmax fold_right]. unfold Rmax. destruct (Rle_dec s1 s0); lra. }
  cbn [map fst snd hd last]. unfold scale_y. cbn [map fst snd]. eexists. apply (f_equal2 pair).
  - unfold simps. cbn [List.length rev app removelast tl]. change (Nat.odd 2) with false. cbn iota. cbn [map fst snd basic removelast tl rev app]. unfold trap. cbn [fst snd]. field. split; [lra|]. replace ((x1 - x0) * (s0 + s1) + (x1 - x0) * (s0 + s1)) with ((x1 - x0) * (2 * (s0 + s1))) by ring. apply Rmult_integral_contrapositive_currified; lra.
  - replace (lt_ (1 / 2) (s0 / 1) || lt_ (1 / 2) (s1 / 1)) with true; [reflexivity|]. symmetry. apply orb_true_iff. unfold lt_. destruct E as [-> | ->]; [left|right]; destruct (Rlt_dec (1 / 2) (1 / 1)); auto; lra.
Qed.
Lemma flat_two x0 x1 cp n u v : 0 < x0 < x1 -> strToUnit u = Ok v -> exists b, newArrayBand [x0; x1] [1; 1] cp n u = Ok b /\ pts b = [(x0, 1); (x1, 1)] /\ cen b = (x0 + x1) / 2 /\ bunit b = v /\ bnorm b = n.
Proof.
  intros Hx Hu. unfold newArrayBand. cbn [List.length Nat.ltb Nat.leb]. cbv zeta. replace (sortx (combine [x0; x1] [1; 1])) with [(x0, 1); (x1, 1)] by (unfold sortx; cbn [combine fold_right insx fst]; decide_all; reflexivity). cbn [map snd].
  replace (lmin [1; 1]) with 1 by (cbn [lmin fold_right]; mm). unfold lt_. destruct (Rlt_dec 1 0); [lra|]. cbn [map snd fst]. replace (lmax [1; 1]) with 1 by (cbn [lmax fold_right]; mm).
  destruct (two_moments x0 x1 1 1) as (w & Ew); [lra|lra|lra|auto|lra|lra|]. replace (1 / 1) with 1 by field. replace (if n then [(x0, 1); (x1, 1)] else [(x0, 1); (x1, 1)]) with [(x0, 1); (x1, 1)] by (now destruct n). rewrite Ew, Hu. eexists. split; [reflexivity|]. cbn [pts cen bunit bnorm]. split; [reflexivity|]. split; [lra|]. split; reflexivity.
Qed.
(** the centre of a two-point band lies between its points *)
Lemma between s0 s1 x0 x1 lo hi : 0 < s0 -> 0 < s1 -> lo < x0 < hi -> lo < x1 < hi -> lo < (s0 * x0 + s1 * x1) / (s0 + s1) < hi.
Proof.
  intros P0 P1 H0 H1. split; apply (Rmult_lt_reg_r (s0 + s1)); try lra; unfold Rdiv; rewrite Rmult_assoc, Rinv_l by lra; nra.
Qed.
Lemma flat_turned b x0 x1 u v n : 0 < x0 < x1 -> pts b = [(x0, 1); (x1, 1)] -> bnorm b = true -> bunit b = u -> strToUnit n = Ok v -> v <> u -> exists b' s0 s1, setBUnit b n = (b', Ok tt) /\ bunit b' = v /\ 0 < s0 /\ 0 < s1 /\ bnorm b' = true /\ cen b' = (s0 * xtrans u v x0 + s1 * xtrans u v x1) / (s0 + s1).
Proof.
  intros Hx Ep En Eu Hn Nv. unfold BandModel.setBUnit. rewrite Hn. destruct (unit_eqb v (bunit b)) eqn:Ev; [apply unit_eqb_eq in Ev; congruence|]. rewrite Ep, En, Eu. cbn [map]. destruct (factor u v x0 ltac:(lra)) as (K0 & P0 & E0). destruct (factor u v x1 ltac:(lra)) as (K1 & P1 & E1).
  cbn [map snd fst]. rewrite E0, E1, !(xf_fst c h ergperev Hc Hh He) by lra. rewrite !Rmult_1_l. set (mx := lmax [K0; K1]). assert (M : (mx = K0 \/ mx = K1) /\ K0 <= mx /\ K1 <= mx). { unfold mx. cbn [lmax fold_right]. unfold Rmax. destruct (Rle_dec K1 K0); lra. }
  assert (Pm : 0 < mx) by lra. assert (Nx : xtrans u v x0 <> xtrans u v x1).
  { destruct (forms c h ergperev Hc Hh He u v) as [(k & Hk & Fx & _)|(k & Hk & Fx & _)].
    - rewrite !Fx by lra. intros E. assert (k * x1 = k * x0); [|nra]. replace (k * x1) with (k / x0 * x0 * x1) by (field; lra). rewrite E. field. lra.
    - rewrite !Fx. nra. }
  assert (D : forall K, 0 < K -> K <= mx -> 0 < K / mx <= 1). { intros K PK LK. split; [now apply Rdiv_lt_0_compat|]. apply (Rmult_le_reg_r mx); [exact Pm|]. unfold Rdiv. rewrite Rmult_assoc, Rinv_l by lra. lra. }
  destruct (D K0 P0 ltac:(lra)) as (A0 & B0). destruct (D K1 P1 ltac:(lra)) as (A1 & B1).
  destruct (two_moments (xtrans u v x0) (xtrans u v x1) (K0 / mx) (K1 / mx) A0 A1 Nx) as (w & Ew); [|exact B0|exact B1|].
  - clearbody mx. destruct M as ([M|M] & _); [left; rewrite <- M; field; lra|right; rewrite <- M; field; lra].
  - rewrite Ew. eexists. exists (K0 / mx), (K1 / mx). split; [reflexivity|]. cbn [bunit bnorm cen]. split; [reflexivity|]. split; [exact A0|]. split; [exact A1|]. split; reflexivity.
Qed.
Lemma turned_back u v k z : fst z <> 0 -> xftrans v u (turned u v k z) = (fst z, snd z * k).
Proof.
  intros N. pose proof (turned_twice u v u k 1 z N) as T. rewrite turned_same in T. unfold turned at 1 in T. rewrite !Rmult_1_r in T. rewrite <- T. now destruct (xftrans v u (turned u v k z)).
Qed.
Definition lessthan (a b : R) : bool := if Rlt_dec a b then true else false.
Theorem C125_order_refuted : exists a b, newArrayBand [1; 2] [1; 1] true true "angstroms" = Ok a /\ (exists f, 0 < f /\ newArrayBand [f; 2 * f] [1; 1] true true "hz" = Ok b) /\
  snd (compare c h ergperev lessthan a b) = Ok (Some true) /\ snd (compare c h ergperev lessthan b a) = Ok (Some true).
Proof.
  (* b has the wavelengths 5 and 10 angstrom *)
  set (f0 := c * 10 ^ 8 / 10). assert (Pf : 0 < f0) by (unfold f0; lra).
  destruct (flat_two 1 2 true true "angstroms" UAng ltac:(lra) eq_refl) as (a & Ha & Pa & Ca & Ua & Na). destruct (flat_two f0 (2 * f0) true true "hz" UHz ltac:(lra) eq_refl) as (b & Hb & Pb & Cb & Ub & Nb). exists a, b. split; [exact Ha|]. split; [exists f0; auto|].
  assert (X : forall x, 0 < x -> xtrans UHz UAng x = c * 10 ^ 8 / x) by (intros x Hx; unfold SpecModel.xtrans; cbn [ptype conv fst scale]; field; lra).
  assert (Y : forall x, 0 < x -> xtrans UAng UHz x = c * 10 ^ 8 / x) by (intros x Hx; unfold SpecModel.xtrans; cbn [ptype conv fst scale]; field; lra).
  assert (Wb : whole b). { split; [exact Nb|]. rewrite Pb. split; [cbn [map snd lmax fold_right]; mm|]. split; [repeat constructor; cbn [fst]; lra|]. rewrite <- Pb. destruct (made [f0; 2 * f0] [1; 1] true true "hz" b eq_refl ltac:(discriminate) Hb) as (_ & _ & _ & _ & Em & _). exact Em. }
  assert (Wa : whole a). { split; [exact Na|]. rewrite Pa. split; [cbn [map snd lmax fold_right]; mm|]. split; [repeat constructor; cbn [fst]; lra|]. rewrite <- Pa. destruct (made [1; 2] [1; 1] true true "angstroms" a eq_refl ltac:(discriminate) Ha) as (_ & _ & _ & _ & Em & _). exact Em. }
  assert (Back : forall q q' n, whole q -> setBUnit q n = (q', Ok tt) -> forall n', strToUnit n' = Ok (bunit q) -> (List.length (pts q) = 2)%nat -> exists q2, setBUnit q' n' = (q2, Ok tt)).
  { intros q q' n W E n' E' L2. destruct (step q n q' W E) as (k & Pk & Ek & W' & _). unfold BandModel.setBUnit. rewrite E'. destruct (unit_eqb (bunit q) (bunit q')) eqn:Eu; [eauto|]. pose proof W' as (Wn' & Wm' & Wx' & Wc'). rewrite Wn'.
    set (p := map (xftrans (bunit q') (bunit q)) (pts q')). set (mx := lmax (map snd p)).
    assert (Bk : p = map (fun z : R * R => (fst z, snd z * k)) (pts q)). { unfold p. rewrite Ek, map_map. apply map_ext_in. intros z Hz. destruct W as (_ & _ & Wx & _). rewrite Forall_forall in Wx. now apply turned_back, Wx. }
    assert (Pm : mx = k). { unfold mx. rewrite Bk, map_map. cbn [snd]. rewrite <- (map_map snd (fun y => y * k)). destruct W as (_ & Wm & _). rewrite lmax_scale, Wm by exact Pk. ring. }
    assert (Pq : map (fun z : R * R => (fst z, snd z / mx)) p = map (fun z : R * R => (fst z, snd z * (k / mx))) (pts q)).
    { rewrite Bk, map_map. apply map_ext. intros z. cbn [fst snd]. apply (f_equal2 pair); [reflexivity|]. unfold Rdiv. ring. }
    assert (Ek1 : k / mx = 1) by (rewrite Pm; field; lra).
    rewrite Pq, Ek1. replace (map (fun z : R * R => (fst z, snd z * 1)) (pts q)) with (pts q). 2: { transitivity (map (fun z : R * R => z) (pts q)); [now rewrite map_id|]. apply map_ext. intros (y, s). cbn [fst snd]. now rewrite Rmult_1_r. }
    destruct W as (_ & _ & _ & Wc). rewrite Wc. eauto. }
  split.
  - destruct (flat_turned b f0 (2 * f0) UHz UAng (unit_name UAng) ltac:(lra) Pb Nb Ub eq_refl ltac:(discriminate)) as (b' & s0 & s1 & E & U' & P0 & P1 & _ & Cc).
    destruct (Back b b' _ Wb E (unit_name (bunit b)) ltac:(rewrite Ub; reflexivity) ltac:(rewrite Pb; reflexivity)) as (b2 & E2). unfold compare. rewrite Ua, E, E2. cbn [snd]. do 2 f_equal. unfold lessthan. destruct (Rlt_dec (cen a) (cen b')) as [_|N]; [reflexivity|]. exfalso. apply N. rewrite Ca, Cc, !X by lra.
    assert (Q1 : c * 10 ^ 8 / f0 = 10) by (unfold f0; field; lra). assert (Q2 : c * 10 ^ 8 / (2 * f0) = 5) by (unfold f0; field; lra). rewrite Q1, Q2. destruct (between s0 s1 10 5 4 11 P0 P1); lra.
  - destruct (flat_turned a 1 2 UAng UHz (unit_name UHz) ltac:(lra) Pa Na Ua eq_refl ltac:(discriminate)) as (a' & s0 & s1 & E & U' & P0 & P1 & _ & Cc).
    destruct (Back a a' _ Wa E (unit_name (bunit a)) ltac:(rewrite Ua; reflexivity) ltac:(rewrite Pa; reflexivity)) as (a2 & E2). unfold compare. rewrite Ub, E, E2. cbn [snd]. do 2 f_equal. unfold lessthan. destruct (Rlt_dec (cen b) (cen a')) as [_|N]; [reflexivity|]. exfalso. apply N. rewrite Cb, Cc, !Y by lra.
    assert (Q : 0 < c * 10 ^ 8) by lra. destruct (between s0 s1 (c * 10 ^ 8 / 1) (c * 10 ^ 8 / 2) (c * 10 ^ 8 / 4) (c * 10 ^ 8 * 2) P0 P1); try lra. unfold f0. lra.
Qed.
End Units.
(** ** Example: a table that makes a normalised band. *)
Example flat_band : exists b, newArrayBand [1; 2] [1; 1] true true "angstroms" = Ok b /\ whole b /\ cen b = 3 / 2.
Proof.
  destruct (flat_two 1 2 true true "angstroms" UAng ltac:(lra) eq_refl) as (b & Hb & _ & Cb & _). exists b. split; [exact Hb|]. split; [|lra]. apply (C125_whole [1; 2] [1; 1] true "angstroms" b); [reflexivity|discriminate|repeat constructor; lra| |exact Hb]. unfold low_end. cbn [lmin lmax fold_right]. mm.
Qed.
