(** * FitsHist: histories, applying changes and what fails for FITS images (C126) *)
From Coq Require Import Reals ZArith List Bool Arith Lia Lra String.
From Verif Require Import PyBase CcdModel CcdRegion CcdScale FitsModel FitsProof.
Import ListNotations.
Open Scope R_scope.

(** ** Invariant *)
Definition dataless (f : list hdu) (z : Z) : Prop := forall r, exists e, cut f z r = Raise e /\ e <> IndexError.
(** the data have the shape of the selected part of the current HDU, or that part does not exist; a pending change of HDU will fail again *)
Definition inv (m : fimage) : Prop :=
  (exists z, chdu m = Some z /\
     ((exists k a, cut (hdus m) z (rng m) = Ok (k, a) /\ nx (data m) = nx a /\ ny (data m) = ny a /\ (view m = None \/ view m = Some (k, rng m))) \/ cut (hdus m) z (rng m) = Raise IndexError) /\
     (z = newhdu m \/ fdict m = false \/ dataless (hdus m) (newhdu m))) /\
  (forall k r, view m = Some (k, r) -> exists z a, cut (hdus m) z r = Ok (k, a)).
Lemma cut_cases f z : (exists k a, cut f z None = Ok (k, a)) \/ (forall r, cut f z r = Raise IndexError) \/ dataless f z.
Proof.
  unfold dataless, cut. destruct (position (List.length f) z) as [k|]; [|auto]. destruct (nth_error f k) as [h|]; [|auto]. destruct (pixels h) as [a|]; [left; eauto|]. right. right. intros r. eexists. split; [reflexivity|]. destruct r; discriminate.
Qed.
Lemma activated_inv m z k a r : chdu m = Some z -> newhdu m = z -> cut (hdus m) z r = Ok (k, a) -> inv (activated m r k a).
Proof.
  intros C N E. pose proof (cut_Ok _ _ _ _ _ E) as (_ & _ & _ & _ & _ & Ep & _). split.
  - exists z. split; [exact C|]. split; [|left; exact (eq_sym N)]. left. exists k, a. split; [exact E|]. destruct (data_activated m r k a Ep) as [-> |(-> & _)]; (split; [reflexivity|]; split; [reflexivity|]); unfold activated; cbn [view rng]; destruct (shares_k (scal m)); auto.
  - intros k' r' V. unfold activated in V |- *. cbn [view hdus] in *. destruct (shares_k (scal m)); [|discriminate]. injection V as <- <-. eauto.
Qed.
Lemma extract_inv m r : inv m -> (exists e, extractArray m r = (m, Raise e)) \/ (exists k a, extractArray m r = (m, Ok (k, a)) /\ chdu m = Some (newhdu m) /\ cut (hdus m) (newhdu m) r = Ok (k, a)).
Proof.
  intros ((z & C & _ & N) & _). unfold extractArray. rewrite C. pose proof (cut_skel (hdus m) (hdus m) z r eq_refl) as Ck. destruct (Z.eqb_spec z (newhdu m)) as [<- |Nz].
  - destruct (cut (hdus m) z r) as [(k, a)|e|] eqn:E; [right|left|contradiction]; eauto.
  - left. destruct N as [N|[N|N]]; [contradiction| |].
    + rewrite N. cbn [negb]. eauto.
    + destruct (fdict m); cbn [negb]; [|eauto]. destruct (N r) as (e & E & Ne). rewrite E. exists e. destruct e; try reflexivity. contradiction.
Qed.
Lemma activate_inv m r : inv m -> hdus (fst (activate m r)) = hdus m /\ inv (fst (activate m r)).
Proof.
  intros I. unfold activate. destruct (extract_inv m r I) as [(e & ->)|(k & a & -> & C & E)]; cbn [fst]; [auto|]. split; [reflexivity|]. now apply (activated_inv m (newhdu m)).
Qed.
Lemma select_inv m q : inv m -> hdus (fst (activateRange m q)) = hdus m /\ inv (fst (activateRange m q)).
Proof.
  intros I. destruct q as [|xc yc rad|b|]; cbn [activateRange]; try (now apply activate_inv); [|auto]. destruct (extract_inv m None I) as [(e & ->)|(k & a & -> & _)]; cbn [fst]; [auto|]. cbv zeta. destruct (_ || _); [auto|]. now apply activate_inv.
Qed.
Lemma scaling_inv m q : inv m -> hdus (fst (setScaling m q)) = hdus m /\ inv (fst (setScaling m q)).
Proof.
  intros I. unfold setScaling. set (k := match q with Some k => k | None => KLinear end).
  assert (J : inv (FImage (hdus m) (chdu m) (newhdu m) (rng m) (view m) (own m) k false (zpt m) (pixscale m))). { destruct I as ((z & C & D & N) & V). split; [|exact V]. exists z. split; [exact C|]. split; [exact D|]. right. now left. }
  destruct q as [q|]; [|destruct (scal m); [auto| | |]]; exact (activate_inv _ (rng m) J).
Qed.
Lemma sethdu_inv m z : inv m -> hdus (fst (setHdu m z)) = hdus m /\ inv (fst (setHdu m z)).
Proof.
  intros I. pose proof I as ((z0 & C & D & N) & V). unfold setHdu, activate, extractArray. cbn [chdu newhdu fdict hdus]. rewrite C. destruct (Z.eqb_spec z0 z) as [-> |Nz].
  - destruct D as [(k & a & E & D)|D].
    + rewrite E. cbn [fst]. split; [reflexivity|]. apply (activated_inv _ z); [reflexivity|reflexivity|exact E].
    + rewrite D. cbn [fst]. split; [reflexivity|]. split; [|exact V]. exists z. split; [reflexivity|]. split; [right; exact D|left; reflexivity].
  - destruct (fdict m) eqn:Fd; cbn [negb].
    + pose proof (cut_skel (hdus m) (hdus m) z (rng m) eq_refl) as Ck. destruct (cut (hdus m) z (rng m)) as [(k, a)|e|] eqn:E; [| |contradiction].
      * pose proof (cut_Ok _ _ _ _ _ E) as (_ & h & _ & Hk & _). unfold updateFromHeader. cbn [with_chdu hdus]. rewrite Hk. cbn [fst]. split; [reflexivity|]. apply (activated_inv _ z); [reflexivity|reflexivity|exact E].
      * assert (B : e = IndexError \/ dataless (hdus m) z).
        { destruct (cut_cases (hdus m) z) as [(k & a & Q)|[Q|Q]]; [|left; rewrite Q in E; congruence|right; exact Q]. left. destruct (rng m) as [(((xl, xu), yl), yu)|]; [|congruence]. unfold cut in E, Q. destruct (position _ _); [|congruence]. destruct (nth_error _ _) as [h|]; [|congruence]. destruct (pixels h); [|congruence]. destruct (_ || _) in E; congruence. }
        destruct B as [-> |B].
        -- cbn [fst]. split; [reflexivity|]. split; [|exact V]. exists z. split; [reflexivity|]. split; [right; exact E|left; reflexivity].
        -- assert (Ne : e <> IndexError) by (destruct (B (rng m)) as (e' & E' & Ne'); congruence).
           replace (match e with IndexError => (with_chdu (FImage (hdus m) (Some z0) z (rng m) (view m) (own m) (scal m) true (zpt m) (pixscale m)) (Some z), @Raise (nat * arr) TypeError) | _ => (FImage (hdus m) (Some z0) z (rng m) (view m) (own m) (scal m) true (zpt m) (pixscale m), Raise e) end) with (FImage (hdus m) (Some z0) z (rng m) (view m) (own m) (scal m) true (zpt m) (pixscale m), @Raise (nat * arr) e) by (destruct e; try reflexivity; contradiction).
           cbn [fst]. split; [reflexivity|]. split; [|exact V]. exists z0. split; [reflexivity|]. split; [exact D|right; right; exact B].
    + cbn [fst]. split; [reflexivity|]. split; [|exact V]. exists z0. split; [reflexivity|]. split; [exact D|right; left; reflexivity].
Qed.
(** a file with other pixels and the same shapes *)
Lemma inv_pixels m f : skel f = skel (hdus m) -> inv m -> inv (with_hdus m f).
Proof.
  intros S ((z & C & D & N) & V). split.
  - exists z. split; [exact C|]. split.
    + pose proof (cut_skel (hdus m) f z (rng m) (eq_sym S)) as K. destruct D as [(k & a & E & X & Y & W)|D].
      * left. rewrite E in K. destruct K as (a' & E' & X' & Y'). exists k, a'. split; [exact E'|]. cbn [with_hdus rng view]. split; [|split; [|exact W]].
        -- rewrite X', <- X. unfold data. cbn [with_hdus view hdus own]. destruct (view m) as [(kv, rv)|]; [|reflexivity]. now apply part_skel.
        -- rewrite Y', <- Y. unfold data. cbn [with_hdus view hdus own]. destruct (view m) as [(kv, rv)|]; [|reflexivity]. now apply part_skel.
      * right. rewrite D in K. exact K.
    + destruct N as [N|[N|N]]; [now left|right; now left|]. right. right. intros r. destruct (N r) as (e & E & Ne). exists e. split; [|exact Ne]. pose proof (cut_skel (hdus m) f (newhdu m) r (eq_sym S)) as K. rewrite E in K. exact K.
  - intros k r W. destruct (V k r W) as (z' & a & E). pose proof (cut_skel (hdus m) f z' r (eq_sym S)) as K. rewrite E in K. destruct K as (a' & E' & _). eauto.
Qed.
Lemma part_of f k r h a : nth_error f k = Some h -> pixels h = Some a -> part f k r = match r with None => transpose a | Some b => sub (transpose a) b end.
Proof. intros H A. unfold part. now rewrite H, A. Qed.
Lemma edit_cases m g : inv m -> (exists d, edit m g = FImage (hdus m) (chdu m) (newhdu m) (rng m) None d (scal m) (fdict m) (zpt m) (pixscale m) /\ view m = None /\ nx d = nx (data m) /\ ny d = ny (data m)) \/
  (exists k r h a, view m = Some (k, r) /\ nth_error (hdus m) k = Some h /\ pixels h = Some a /\ edit m g = with_hdus m (set_hdu (hdus m) k (transpose (match r with None => Arr (nx (data m)) (ny (data m)) (fun i j => g i j (px (data m) i j)) | Some b => put (transpose a) b (Arr (nx (data m)) (ny (data m)) (fun i j => g i j (px (data m) i j))) end))) /\
     data m = match r with None => transpose a | Some b => sub (transpose a) b end).
Proof.
  intros (_ & V). unfold edit. destruct (view m) as [(k, r)|] eqn:Ev; [right|left; eexists; repeat split; reflexivity]. destruct (V k r eq_refl) as (z & a' & E). destruct (cut_Ok _ _ _ _ _ E) as (_ & h & a & H & A & _). exists k, r, h, a. split; [reflexivity|]. split; [exact H|]. split; [exact A|]. rewrite H, A. split; [reflexivity|]. unfold data. rewrite Ev. now apply (part_of _ _ _ h).
Qed.
Lemma edit_inv m g : inv m -> skel (hdus (edit m g)) = skel (hdus m) /\ inv (edit m g).
Proof.
  intros I. destruct (edit_cases m g I) as [(d & -> & V & X & Y)|(k & r & h & a & V & H & A & -> & D)].
  - split; [reflexivity|]. destruct I as ((z & C & Da & N) & W). split.
    + exists z. split; [exact C|]. split; [|exact N]. destruct Da as [(k & a & E & X1 & Y1 & _)|Da]; [left|right; exact Da]. exists k, a. split; [exact E|]. unfold data at 1 2. cbn [view own]. split; [congruence|]. split; [congruence|now left].
    + intros k r W'. discriminate.
  - set (t := transpose _). assert (S : skel (set_hdu (hdus m) k t) = skel (hdus m)). { apply (set_hdu_skel _ k h a); [exact H|exact A|unfold t|unfold t]; unfold transpose at 1; cbn [nx ny]; destruct r as [(((xl, xu), yl), yu)|]; cbn [put nx ny transpose]; try reflexivity; rewrite D; reflexivity. }
    split; [exact S|]. now apply inv_pixels.
Qed.
Lemma apply_cases m : inv m -> (hdus (fst (applyChanges m)) = hdus m /\ fst (applyChanges m) = m) \/
  (exists z k h a a', chdu m = Some z /\ position (List.length (hdus m)) z = Some k /\ nth_error (hdus m) k = Some h /\ pixels h = Some a /\ fst (applyChanges m) = with_hdus m (set_hdu (hdus m) k a') /\ nx a' = nx a /\ ny a' = ny a /\ (view m = None \/ view m = Some (k, rng m)) /\
     (a' = transpose (amap (inv_k (scal m)) (data m)) /\ rng m = None \/ exists xl xu yl yu, rng m = Some (xl, xu, yl, yu) /\ a' = put a (yl, yu, xl, xu) (amap (inv_k (scal m)) (data m)))).
Proof.
  intros ((z & C & D & N) & V). unfold applyChanges. set (d := amap (inv_k (scal m)) (data m)).
  assert (F : forall p : fimage * @res unit, fst (match p with (m', Ok _) => (m', if fdict m' then Ok tt else Raise AttributeError) | (m', r) => (m', r) end) = fst p) by (intros (m', [u|e|]); reflexivity). rewrite F. unfold applyArray. rewrite C. destruct D as [(k & b & E & X & Y & W)|D].
  - destruct (cut_Ok _ _ _ _ _ E) as (P & h & a & H & A & Ep & Er). rewrite P, H. destruct (rng m) as [(((xl, xu), yl), yu)|] eqn:R0.
    + rewrite A. destruct (_ || _) in |- *; [left; auto|]. cbv zeta. destruct (_ && _) in |- *; [|left; auto]. right. exists z, k, h, a, (put a (yl, yu, xl, xu) d). repeat (split; [reflexivity || assumption|]). right. exists xl, xu, yl, yu. auto.
    + right. exists z, k, h, a, (transpose d). repeat (split; [reflexivity || assumption|]). rewrite Er in X, Y. split; [unfold transpose, d; cbn [nx amap ny]; rewrite Y; reflexivity|]. split; [unfold transpose, d; cbn [ny amap nx]; rewrite X; reflexivity|]. split; [exact W|]. left. auto.
  - left. unfold cut in D. destruct (position (List.length (hdus m)) z) as [k|]; [|auto]. destruct (nth_error (hdus m) k) as [h|]; [|auto]. destruct (pixels h) as [a|] eqn:A; [|destruct (rng m); discriminate]. destruct (rng m) as [(((xl, xu), yl), yu)|]; [|discriminate]. destruct (_ || _) in D |- *; [auto|discriminate].
Qed.
Lemma apply_inv m : inv m -> skel (hdus (fst (applyChanges m))) = skel (hdus m) /\ inv (fst (applyChanges m)).
Proof.
  intros I. destruct (apply_cases m I) as [(E & Em)|(z & k & h & a & a' & _ & _ & H & A & -> & X & Y & _)]; [rewrite Em; auto|]. assert (S : skel (set_hdu (hdus m) k a') = skel (hdus m)) by now apply (set_hdu_skel _ k h a). split; [exact S|]. now apply inv_pixels.
Qed.
Lemma step_inv m o : inv m -> skel (hdus (step m o)) = skel (hdus m) /\ inv (step m o).
Proof.
  intros I. destruct o as [q|z|k|g|]; cbn [step]; [destruct (select_inv m q I)|destruct (sethdu_inv m z I)|destruct (scaling_inv m k I)|now apply edit_inv|now apply apply_inv]; split; congruence || assumption.
Qed.
Lemma new_inv s z m : newFits s None z = Ok m -> inv m /\ opened s = Ok (hdus m).
Proof.
  unfold newFits. destruct (opened s) as [f|e|]; try discriminate. cbv zeta. unfold activate, extractArray. cbn [chdu fdict negb hdus newhdu]. destruct (cut f z None) as [(k, a)|e|] eqn:E; [|destruct e; discriminate|discriminate].
  pose proof (cut_Ok _ _ _ _ _ E) as (_ & h & _ & Hk & _). unfold updateFromHeader. cbn [with_chdu hdus]. rewrite Hk. intros Q. injection Q as <-. split; [|reflexivity]. apply (activated_inv _ z); [reflexivity|reflexivity|exact E].
Qed.
(** ** Pixels *)
Lemma at_set f k h a a' : nth_error f k = Some h -> pixels h = Some a -> nx a' = nx a -> ny a' = ny a -> forall k' i j, at_ (set_hdu f k a') k' i j <> at_ f k' i j -> k' = k /\ (i < ny a)%nat /\ (j < nx a)%nat /\ px a' j i <> px a j i.
Proof.
  intros H A X Y k' i j. unfold at_. rewrite set_hdu_nth. destruct (Nat.eqb_spec k' k) as [-> |N]; [|intros Q; now contradiction Q]. rewrite H. cbn [option_map pixels]. rewrite A, X, Y. destruct (Nat.ltb_spec i (ny a)), (Nat.ltb_spec j (nx a)); cbn [andb]; intros Q; try (now contradiction Q). repeat split; auto. congruence.
Qed.
Lemma edge_in n z i : (i < n)%nat -> ((bound n z <= i)%nat -> (edge n z <= Z.of_nat i)%Z) /\ ((i < bound n z)%nat -> (Z.of_nat i < edge n z)%Z).
Proof. intros Hi. unfold bound, edge. destruct (Z.ltb_spec z 0); split; lia. Qed.
Lemma put_in a b d i j : (i < nx a)%nat -> (j < ny a)%nat -> px (put a b d) i j <> px a i j -> in_range (nx a) (ny a) (Some b) i j.
Proof.
  destruct b as (((xl, xu), yl), yu). cbn [put px in_range]. intros Hi Hj. unfold low, len. destruct (within (bound (nx a) xl) (bound (nx a) xu - bound (nx a) xl) i) eqn:E1; cbn [andb]; [|intros Q; now contradiction Q]. destruct (within (bound (ny a) yl) (bound (ny a) yu - bound (ny a) yl) j) eqn:E2; [|intros Q; now contradiction Q]. intros _. apply within_spec in E1, E2.
  destruct (edge_in (nx a) xl i Hi) as (P1 & _). destruct (edge_in (nx a) xu i Hi) as (_ & P2). destruct (edge_in (ny a) yl j Hj) as (P3 & _). destruct (edge_in (ny a) yu j Hj) as (_ & P4). split; (split; [apply P1 || apply P3|apply P2 || apply P4]); lia.
Qed.
Lemma step_frame m o : inv m -> forall k i j, at_ (hdus (step m o)) k i j <> at_ (hdus m) k i j -> displayed m k i j.
Proof.
  intros I k i j Q. destruct o as [q|z|kd|g|]; cbn [step] in Q.
  - destruct (select_inv m q I) as (E & _). rewrite E in Q. now contradiction Q.
  - destruct (sethdu_inv m z I) as (E & _). rewrite E in Q. now contradiction Q.
  - destruct (scaling_inv m kd I) as (E & _). rewrite E in Q. now contradiction Q.
  - destruct (edit_cases m g I) as [(d & E & _)|(k0 & r & h & a & V & H & A & E & D)]; rewrite E in Q; [now contradiction Q|]. cbn [with_hdus hdus] in Q.
    apply (at_set _ k0 h a) in Q; [|exact H|exact A| |]. 2,3: unfold transpose at 1; cbn [nx ny]; destruct r as [(((xl, xu), yl), yu)|]; cbn [put nx ny transpose]; try reflexivity; rewrite D; reflexivity.
    destruct Q as (-> & Li & Lj & Q). exists h, a. split; [exact H|]. split; [exact A|]. rewrite V. split; [reflexivity|]. destruct r as [b|]; [|exact Logic.I]. cbn [transpose px] in Q. apply (put_in (transpose a) b _ i j) in Q; [exact Q|exact Li|exact Lj].
  - destruct (apply_cases m I) as [(E & _)|(z & k0 & h & a & a' & C & P & H & A & E & X & Y & W & Wr)]; rewrite E in Q; [now contradiction Q|]. cbn [with_hdus hdus] in Q. apply (at_set _ k0 h a) in Q; try assumption. destruct Q as (-> & Li & Lj & Q). exists h, a. split; [exact H|]. split; [exact A|].
    assert (G : in_range (ny a) (nx a) (rng m) i j). { destruct Wr as [(_ & ->)|(xl & xu & yl & yu & -> & ->)]; [exact Logic.I|]. apply put_in in Q; [|exact Lj|exact Li]. destruct Q as (Q1 & Q2). split; [exact Q2|exact Q1]. }
    destruct W as [-> | ->]; [split; [eauto|exact G]|auto].
Qed.
(** For every history of selections, changes of HDU and scaling, edits and applications: the number of HDUs, their shapes
    and headers stay, and a pixel that the data attribute never showed keeps its value. *)
Theorem C126_history : forall s z m, newFits s None z = Ok m -> forall ops,
  skel (hdus (run m ops)) = skel (hdus m) /\
  forall k i j, (forall before after, ops = before ++ after -> ~ displayed (run m before) k i j) -> at_ (hdus (run m ops)) k i j = at_ (hdus m) k i j.
Proof.
  intros s z m E ops. destruct (new_inv s z m E) as (I & _). assert (G : forall l, inv (run m l) /\ skel (hdus (run m l)) = skel (hdus m)).
  { intros l. induction l as [|o l (IH1 & IH2)] using rev_ind; [split; [exact I|reflexivity]|]. unfold run in *. rewrite fold_left_app. cbn [fold_left]. destruct (step_inv _ o IH1). split; congruence || assumption. }
  split; [apply G|]. intros k i j. induction ops as [|o l IH] using rev_ind; intros N; [reflexivity|].
  rewrite <- IH. 2: { intros b a' ->. apply (N b (a' ++ [o])). now rewrite app_assoc. }
  unfold run at 1. rewrite fold_left_app. cbn [fold_left]. fold (run m l). assert (Dec : {at_ (hdus (step (run m l) o)) k i j = at_ (hdus (run m l)) k i j} + {at_ (hdus (step (run m l) o)) k i j <> at_ (hdus (run m l)) k i j}). { destruct (at_ (hdus (step (run m l) o)) k i j) as [x|], (at_ (hdus (run m l)) k i j) as [y|]; try (right; discriminate); [|now left]. destruct (Req_EM_T x y); [left; congruence|right; congruence]. }
  destruct Dec as [D|D]; [exact D|]. exfalso. apply (N l [o] eq_refl). apply (step_frame (run m l) o); [apply G|exact D].
Qed.
(** Selecting, changing the HDU or the scaling, successful or not, changes no pixel. *)
Theorem C126_reading : forall s z m ops o, newFits s None z = Ok m -> match o with OEdit _ | OApply => False | _ => True end -> hdus (step (run m ops) o) = hdus (run m ops).
Proof.
  intros s z m ops o E No. destruct (new_inv s z m E) as (I & _). assert (G : inv (run m ops)). { clear No. induction ops as [|p l IH] using rev_ind; [exact I|]. unfold run in *. rewrite fold_left_app. cbn [fold_left]. now destruct (step_inv _ p IH). }
  destruct o as [q|v|k|g|]; try contradiction; cbn [step]; [now apply select_inv|now apply sethdu_inv|now apply scaling_inv].
Qed.
(** ** Applying *)
Lemma inv_fwd k x : inv_k k (fwd_k k x) = x.
Proof. destruct k; cbn [inv_k fwd_k]; [reflexivity|reflexivity|apply ln_exp|apply sinh_arcsinh]. Qed.
(** With the whole image selected, applying the data, edited or not, puts the inverse of each element into the pixel of the same x and y. *)
Theorem C126_apply_whole : forall s z m0 ops k a, newFits s None z = Ok m0 -> let m := run m0 ops in current m k a -> rng m = None -> exists m' r, applyChanges m = (m', r) /\ (r = Ok tt \/ fdict m = false /\ r = Raise AttributeError) /\
  forall i j, pixel (ny a) (nx a) i j -> at_ (hdus m') k i j = Some (inv_k (scal m) (px (data m) i j)).
Proof.
  intros s z m0 ops k a E m C Rn. destruct (new_inv s z m0 E) as (I0 & _). assert (I : inv m). { unfold m. clear m C Rn. induction ops as [|p l IH] using rev_ind; [exact I0|]. unfold run in *. rewrite fold_left_app. cbn [fold_left]. now destruct (step_inv _ p IH). }
  clearbody m. pose proof C as (Cc & P & h & H & A). unfold applyChanges, applyArray. rewrite Cc, P, H, Rn. eexists. eexists. split; [reflexivity|]. split; [cbn [with_hdus fdict]; destruct (fdict m); auto|]. intros i j (Li & Lj). cbn [with_hdus hdus]. unfold at_. rewrite set_hdu_nth, Nat.eqb_refl, H. cbn [option_map pixels].
  destruct I as ((z0 & C0 & D & _) & _). assert (z0 = newhdu m) by congruence. subst z0. rewrite (current_cut m k a C), Rn in D. destruct D as [(k' & b & Eb & X & Y & _)|D]; [|discriminate]. injection Eb as <- <-. cbn [transpose nx ny amap px] in *. rewrite X, Y.
  replace ((i <? ny a)%nat && (j <? nx a)%nat) with true by (symmetry; rewrite andb_true_iff, !Nat.ltb_lt; auto). reflexivity.
Qed.
(** In particular selecting the whole image, under any scaling, and applying it unedited changes no pixel. *)
Theorem C126_apply_unedited : forall s z m0 ops k a, newFits s None z = Ok m0 -> current (run m0 ops) k a -> forall i j, pixel (ny a) (nx a) i j -> at_ (hdus (run m0 (ops ++ [OSelect Whole; OApply]))) k i j = at_ (hdus (run m0 ops)) k i j.
Proof.
  intros s z m0 ops k a E C i j Pi. destruct (C126_whole _ k a C) as (m' & Em & Hf & C' & Rn & S). assert (Er : run m0 (ops ++ [OSelect Whole]) = m') by (unfold run in *; rewrite fold_left_app; cbn [fold_left step]; now rewrite Em).
  assert (C2 : current (run m0 (ops ++ [OSelect Whole])) k a) by (rewrite Er; exact C'). assert (R2 : rng (run m0 (ops ++ [OSelect Whole])) = None) by (rewrite Er; exact Rn). destruct (C126_apply_whole s z m0 (ops ++ [OSelect Whole]) k a E C2 R2) as (m2 & r & Ea & _ & G).
  change [OSelect Whole; OApply] with ([OSelect Whole] ++ [OApply]). rewrite app_assoc. unfold run at 1. rewrite fold_left_app. cbn [fold_left step]. fold (run m0 (ops ++ [OSelect Whole])). rewrite Ea. cbn [fst]. rewrite (G i j Pi), Er. destruct Pi as (Li & Lj). destruct S as (_ & _ & S). specialize (S i j). rewrite !Nat.sub_0_r in S. rewrite S by (unfold in_box; lia).
  assert (Es : scal m' = scal (run m0 ops)). { unfold activateRange, activate in Em. rewrite (current_extract _ k a _ C), (current_cut _ k a C) in Em. injection Em as <-. reflexivity. } rewrite Es, inv_fwd. unfold at_. destruct C as (_ & _ & h & H & A). rewrite H, A. replace ((i <? ny a)%nat && (j <? nx a)%nat) with true by (symmetry; rewrite andb_true_iff, !Nat.ltb_lt; auto). reflexivity.
Qed.

(** ** What fails *)
Lemma run_inv s z m ops : newFits s None z = Ok m -> inv (run m ops).
Proof. intros E. destruct (new_inv s z m E) as (I & _). induction ops as [|p l IH] using rev_ind; [exact I|]. unfold run in *. rewrite fold_left_app. cbn [fold_left]. now destruct (step_inv _ p IH). Qed.
(** Refuted: applying a selected box writes the data back.  A box that is not square is a ValueError and nothing is written;
    a square one is written with x and y exchanged. *)
Theorem C126_apply_box_refuted : forall s z m0 ops k a xl xu yl yu, newFits s None z = Ok m0 -> let m := run m0 ops in current m k a -> rng m = Some (xl, xu, yl, yu) -> fits (ny a) (nx a) xl xu yl yu ->
  ((xu - xl <> yu - yl)%Z -> applyChanges m = (m, Raise ValueError)) /\
  ((xu - xl = yu - yl)%Z -> forall p q, (Z.of_nat p < xu - xl)%Z -> (Z.of_nat q < yu - yl)%Z -> at_ (hdus (fst (applyChanges m))) k (Z.to_nat xl + p) (Z.to_nat yl + q) = Some (inv_k (scal m) (px (data m) q p))).
Proof.
  intros s z m0 ops k a xl xu yl yu E m C Rn F. pose proof (run_inv s z m0 ops E) as I. fold m in I. clearbody m. pose proof C as (Cc & P & h & H & A). pose proof F as (F1 & F2 & F3 & F4).
  destruct I as ((z0 & C0 & D & _) & _). assert (z0 = newhdu m) by congruence. subst z0. rewrite (current_cut m k a C), Rn in D.
  assert (Q : (xl <? 0)%Z || (xu >? Z.of_nat (ny a))%Z || (yl <? 0)%Z || (yu >? Z.of_nat (nx a))%Z = false) by (rewrite !orb_false_iff, !Z.ltb_ge, !Z.gtb_ltb, !Z.ltb_ge; lia). rewrite Q in D. destruct D as [(k' & b & Eb & X & Y & _)|D]; [|discriminate]. injection Eb as <- <-. unfold sub, len in X, Y. cbn [transpose nx ny] in X, Y. rewrite !bound_in in X, Y by lia.
  unfold applyChanges, applyArray. rewrite Cc, P, H, Rn, A, Q. cbv zeta.
  assert (Tx : nx (sub a (yl, yu, xl, xu)) = (Z.to_nat yu - Z.to_nat yl)%nat) by (unfold sub, len; cbn [nx]; rewrite !bound_in by lia; reflexivity). assert (Ty : ny (sub a (yl, yu, xl, xu)) = (Z.to_nat xu - Z.to_nat xl)%nat) by (unfold sub, len; cbn [ny]; rewrite !bound_in by lia; reflexivity).
  rewrite Tx, Ty. change (nx (amap (inv_k (scal m)) (data m))) with (nx (data m)). change (ny (amap (inv_k (scal m)) (data m))) with (ny (data m)). rewrite X, Y. split.
  - intros Ne. replace (Z.to_nat xu - Z.to_nat xl =? Z.to_nat yu - Z.to_nat yl)%nat with false by (symmetry; apply Nat.eqb_neq; lia). reflexivity.
  - intros Eq p q Lp Lq. replace (Z.to_nat xu - Z.to_nat xl =? Z.to_nat yu - Z.to_nat yl)%nat with true by (symmetry; apply Nat.eqb_eq; lia). replace (Z.to_nat yu - Z.to_nat yl =? Z.to_nat xu - Z.to_nat xl)%nat with true by (symmetry; apply Nat.eqb_eq; lia). cbn [andb fst with_hdus hdus]. unfold at_. rewrite set_hdu_nth, Nat.eqb_refl, H. cbn [option_map pixels].
    assert (F' : fits (nx a) (ny a) yl yu xl xu) by (unfold fits; lia). replace ((Z.to_nat xl + p <? ny (put a (yl, yu, xl, xu) (amap (inv_k (scal m)) (data m))))%nat && (Z.to_nat yl + q <? nx (put a (yl, yu, xl, xu) (amap (inv_k (scal m)) (data m))))%nat) with true by (symmetry; cbn [put nx ny]; rewrite andb_true_iff, !Nat.ltb_lt; lia).
    f_equal. destruct (put_spec a yl yu xl xu (amap (inv_k (scal m)) (data m)) (Z.to_nat yl + q) (Z.to_nat xl + p) F') as (G & _). rewrite G by (unfold in_box; lia). cbn [amap px]. f_equal. f_equal; lia.
Qed.
(** Refuted: applying an unedited selection changes nothing: a square box of an image is transposed in the file. *)
Theorem C126_transposed_refuted : forall s z m0 ops k a xl xu yl yu, newFits s None z = Ok m0 -> current (run m0 ops) k a -> fits (ny a) (nx a) xl xu yl yu -> (xu - xl = yu - yl)%Z -> forall p q, (Z.of_nat p < xu - xl)%Z -> (Z.of_nat q < yu - yl)%Z ->
  at_ (hdus (run m0 (ops ++ [OSelect (Box (xl, xu, yl, yu)); OApply]))) k (Z.to_nat xl + p) (Z.to_nat yl + q) = at_ (hdus (run m0 ops)) k (Z.to_nat xl + q) (Z.to_nat yl + p).
Proof.
  intros s z m0 ops k a xl xu yl yu E C F Sq p q Lp Lq. destruct (C126_box _ k a xl xu yl yu C F) as (m' & Em & Hf & C' & Rn & S). set (b := (xl, xu, yl, yu)) in *. assert (Er : run m0 (ops ++ [OSelect (Box b)]) = m') by (unfold run in *; rewrite fold_left_app; cbn [fold_left step]; now rewrite Em).
  destruct (C126_apply_box_refuted s z m0 (ops ++ [OSelect (Box b)]) k a xl xu yl yu E ltac:(rewrite Er; exact C') ltac:(rewrite Er; exact Rn) F) as (_ & G). change [OSelect (Box b); OApply] with ([OSelect (Box b)] ++ [OApply]). rewrite app_assoc. unfold run at 1. rewrite fold_left_app. cbn [fold_left step]. fold (run m0 (ops ++ [OSelect (Box b)])). rewrite (G Sq p q Lp Lq), Er.
  destruct F as (F1 & F2 & F3 & F4). destruct S as (_ & _ & S). specialize (S (Z.to_nat xl + q)%nat (Z.to_nat yl + p)%nat). replace (Z.to_nat xl + q - Z.to_nat xl)%nat with q in S by lia. replace (Z.to_nat yl + p - Z.to_nat yl)%nat with p in S by lia. rewrite S by (unfold in_box; lia).
  assert (Es : scal m' = scal (run m0 ops)). { unfold activateRange, activate in Em. rewrite (current_extract _ k a _ C) in Em. match type of Em with context [cut ?x ?y ?w] => destruct (cut x y w) as [(k', d)|e|]; try discriminate end. injection Em as <-. reflexivity. }
  rewrite Es, inv_fwd. unfold at_. destruct C as (_ & _ & h & H & A). rewrite H, A. replace ((Z.to_nat xl + q <? ny a)%nat && (Z.to_nat yl + p <? nx a)%nat) with true by (symmetry; rewrite andb_true_iff, !Nat.ltb_lt; lia). reflexivity.
Qed.
(** Refuted: lists of arrays, arrays with headers, and a scaling can be given to the constructor. *)
Theorem C126_constructor_refuted : (forall l k z, exists e, newFits (SArrays l) k z = Raise e) /\ (forall a k z, newFits (SPair a) k z = Raise AttributeError) /\ (forall n l k z, exists e, newFits (SPairs n l) k z = Raise e) /\
  (forall s k z m, newFits s (Some k) z <> Ok m) /\ (forall a k z, newFits (SArray a) (Some k) z = Raise AttributeError).
Proof.
  split; [intros [|a l] k z; eexists; reflexivity|]. split; [reflexivity|]. split; [intros n l k z; unfold newFits, opened; destruct (n =? List.length l)%nat; [destruct l|]; eexists; reflexivity|]. split; [|reflexivity]. intros s k z m. unfold newFits. destruct (opened s); discriminate.
Qed.
(** Refuted: with a range that the new HDU does not have, the whole image is used (as the message says): the call is a
    TypeError, hdu already reports the new number, and the data and the range are those of the old HDU.  So for an HDU
    that does not exist. *)
Theorem C126_switch_range_refuted : forall m z, fdict m = true -> chdu m <> Some z -> cut (hdus m) z (rng m) = Raise IndexError -> exists m', setHdu m z = (m', Raise TypeError) /\ chdu m' = Some z /\ data m' = data m /\ rng m' = rng m /\ zpt m' = zpt m.
Proof.
  intros m z D N Ec. unfold setHdu, activate, extractArray. cbn [chdu newhdu fdict hdus]. destruct (chdu m) as [z0|]; [destruct (Z.eqb_spec z0 z) as [-> |_]; [congruence|]|]; rewrite D; cbn [negb]; rewrite Ec; eexists; repeat split; reflexivity.
Qed.
Theorem C126_switch_range_when : forall f z, (cut f z None = Raise IndexError <-> position (List.length f) z = None) /\
  forall k h a xl xu yl yu, position (List.length f) z = Some k -> nth_error f k = Some h -> pixels h = Some a -> (cut f z (Some (xl, xu, yl, yu)) = Raise IndexError <-> (xl < 0 \/ Z.of_nat (ny a) < xu \/ yl < 0 \/ Z.of_nat (nx a) < yu)%Z).
Proof.
  intros f z. split.
  - unfold cut. destruct (position (List.length f) z) as [k|] eqn:P; [|split; reflexivity]. apply position_lt in P. destruct (nth_error f k) as [h|] eqn:H; [|apply nth_error_None in H; lia]. destruct (pixels h); split; intros Q; discriminate.
  - intros k h a xl xu yl yu P H A. unfold cut. rewrite P, H, A. destruct ((xl <? 0)%Z || (xu >? Z.of_nat (ny a))%Z || (yl <? 0)%Z || (yu >? Z.of_nat (nx a))%Z) eqn:Q; split; intros G; try reflexivity; try discriminate.
    + rewrite !orb_true_iff, !Z.ltb_lt, !Z.gtb_lt in Q. lia.
    + rewrite !orb_false_iff, !Z.ltb_ge, !Z.gtb_ltb, !Z.ltb_ge in Q. lia.
Qed.
(** Refuted: the HDU can be changed after a scaling has been set: AttributeError, and then every selection fails until
    the old HDU number is put back. *)
Theorem C126_switch_scaled_refuted : forall s z0 m0 ops k z, newFits s None z0 = Ok m0 -> let m := fst (setScaling (run m0 ops) (Some k)) in chdu m <> Some z ->
  exists m', setHdu m z = (m', Raise AttributeError) /\ hdus m' = hdus m /\ chdu m' = chdu m /\ forall q, q <> Other -> activateRange m' q = (m', Raise AttributeError).
Proof.
  intros s z0 m0 ops k z E m N. assert (D : fdict m = false).
  { unfold m, setScaling, activate, extractArray. set (t := FImage _ _ _ _ _ _ _ _ _ _). assert (Ft : fdict t = false) by reflexivity. assert (G : forall p : fimage * @res (nat * arr), fdict (fst p) = false -> fdict (fst (match p with (m', Ok (k0, a)) => (activated m' (rng (run m0 ops)) k0 a, Ok tt) | (m', Raise e) => (m', Raise e) | (m', OutOfFuel) => (m', OutOfFuel) end)) = false) by (intros (m', [(k0, a)|e|]) Q; exact Q). apply G. destruct (chdu t) as [y|]; [destruct (y =? newhdu t)%Z|]; try exact Ft; rewrite Ft; exact Ft. }
  assert (Sw : forall m1 r, newhdu m1 = z -> chdu m1 = chdu m -> fdict m1 = false -> extractArray m1 r = (m1, Raise AttributeError)). { intros m1 r N1 C1 D1. unfold extractArray. rewrite C1, N1, D1. destruct (chdu m) as [y|]; [|reflexivity]. destruct (Z.eqb_spec y z) as [-> |_]; [congruence|reflexivity]. }
  unfold setHdu, activate. rewrite Sw by (reflexivity || exact D). eexists. split; [reflexivity|]. split; [reflexivity|]. split; [reflexivity|]. intros q Nq. destruct q as [|xc yc rad|b|]; cbn [activateRange]; [unfold activate| |unfold activate|contradiction]; rewrite Sw by (reflexivity || exact D); reflexivity.
Qed.
(** Refuted: after a failed change of HDU the image is as it was: with an HDU without data the old one stays, but no region can be selected any more. *)
Theorem C126_dataless_refuted : forall m z k h, fdict m = true -> chdu m <> Some z -> position (List.length (hdus m)) z = Some k -> nth_error (hdus m) k = Some h -> pixels h = None ->
  exists m' e, setHdu m z = (m', Raise e) /\ hdus m' = hdus m /\ chdu m' = chdu m /\ data m' = data m /\ forall q, q <> Other -> exists e', activateRange m' q = (m', Raise e').
Proof.
  intros m z k h D N P H A. assert (Sw : forall m1 r, newhdu m1 = z -> chdu m1 = chdu m -> fdict m1 = true -> hdus m1 = hdus m -> exists e, extractArray m1 r = (m1, Raise e)).
  { intros m1 r N1 C1 D1 H1. unfold extractArray. rewrite C1, N1, D1, H1. assert (Ec : exists e, cut (hdus m) z r = Raise e /\ e <> IndexError) by (unfold cut; rewrite P, H, A; eexists; split; [reflexivity|destruct r; discriminate]). destruct Ec as (e & Ec & Ne). rewrite Ec. exists e. destruct (chdu m) as [y|]; [destruct (Z.eqb_spec y z) as [-> |_]; [congruence|]|]; cbn [negb]; destruct e; try reflexivity; contradiction. }
  unfold setHdu, activate. match goal with |- context [extractArray ?t ?r] => destruct (Sw t r eq_refl eq_refl D eq_refl) as (e & Ee) end. rewrite Ee. eexists. exists e. split; [reflexivity|]. split; [reflexivity|]. split; [reflexivity|]. split; [reflexivity|].
  intros q Nq. destruct q as [|xc yc rad|b|]; cbn [activateRange]; [unfold activate| |unfold activate|contradiction]; match goal with |- context [extractArray ?t ?r] => destruct (Sw t r eq_refl eq_refl D eq_refl) as (e' & Ee') end; rewrite Ee'; eauto.
Qed.
(** Refuted: the zero point and the pixel scale are those of the current HDU: without entries in its header those of the HDU before stay. *)
Theorem C126_calibration_stale_refuted : forall m z k h a, fdict m = true -> chdu m <> Some z -> position (List.length (hdus m)) z = Some k -> nth_error (hdus m) k = Some h -> pixels h = Some a -> fits_range (ny a) (nx a) (rng m) -> hkeys h = Keys None None None None None ->
  exists m', setHdu m z = (m', Ok tt) /\ chdu m' = Some z /\ zpt m' = zpt m /\ pixscale m' = pixscale m.
Proof.
  intros m z k h a D N P H A F K. destruct (C126_switch m z k h a D N P H A F) as (m' & E & C & _ & _ & _ & _ & Z & Q). exists m'. rewrite Z, Q, K. auto.
Qed.
(** Refuted: a zero point or pixel scale assigned to the image is saved: the file written always has the header entries it was opened with. *)
Theorem C126_calibration_saved_refuted : forall s z m ops v w f, newFits s None z = Ok m -> save (setPixscale (setZpt (run m ops) v) w) = Ok f -> f = hdus (run m ops) /\ skel f = skel (hdus m).
Proof.
  intros s z m ops v w f E Hs. assert (f = hdus (run m ops)). { unfold save in Hs. cbn [setPixscale setZpt chdu hdus pixscale] in Hs. destruct (chdu (run m ops)); [|discriminate]. destruct (position _ _); [|discriminate]. destruct (nth_error _ _) as [h|]; [|discriminate]. destruct (PIXSCALE (hkeys h)), (PIXSCAL1 (hkeys h)); congruence. }
  split; [exact H|]. subst f. now apply (C126_history s z m E ops).
Qed.
(** With the linear (or power) scaling an assignment to data is already in the file: element x, y of the region becomes the assigned value. *)
Theorem C126_edit_linear : forall m k h a g, nth_error (hdus m) k = Some h -> pixels h = Some a -> shares_k (scal m) = true ->
  (forall m1, current m k a -> activateRange m Whole = (m1, Ok tt) -> forall i j, pixel (ny a) (nx a) i j -> at_ (hdus (edit m1 g)) k i j = Some (g i j (px a j i))) /\
  (forall m1 xl xu yl yu, current m k a -> fits (ny a) (nx a) xl xu yl yu -> activateRange m (Box (xl, xu, yl, yu)) = (m1, Ok tt) -> forall i j, in_box xl xu yl yu i j -> at_ (hdus (edit m1 g)) k i j = Some (g (i - Z.to_nat xl)%nat (j - Z.to_nat yl)%nat (px a j i))).
Proof.
  intros m k h a g H A Sh. split.
  - intros m1 C E i j (Li & Lj). unfold activateRange, activate in E. rewrite (current_extract m k a _ C), (current_cut m k a C) in E. injection E as <-. set (m1 := activated m None k (transpose a)). assert (V : view m1 = Some (k, None)) by (unfold m1, activated; cbn [view]; now rewrite Sh). assert (D : data m1 = transpose a) by (unfold data; rewrite V; now apply (part_of _ _ None h)). assert (Hm : hdus m1 = hdus m) by reflexivity. unfold edit. rewrite V, Hm, H, A, D. cbn [with_hdus hdus]. unfold at_. rewrite set_hdu_nth, Nat.eqb_refl, H. cbn [option_map pixels transpose nx ny px]. replace ((i <? ny a)%nat && (j <? nx a)%nat) with true by (symmetry; rewrite andb_true_iff, !Nat.ltb_lt; auto). reflexivity.
  - intros m1 xl xu yl yu C F E i j B. pose proof F as (F1 & F2 & F3 & F4). pose proof B as (B1 & B2). unfold activateRange, activate in E. rewrite (current_extract m k a _ C), (current_cut m k a C) in E. replace ((xl <? 0)%Z || (xu >? Z.of_nat (ny a))%Z || (yl <? 0)%Z || (yu >? Z.of_nat (nx a))%Z) with false in E by (symmetry; rewrite !orb_false_iff, !Z.ltb_ge, !Z.gtb_ltb, !Z.ltb_ge; lia). injection E as <-.
    match goal with |- context [activated ?x ?y ?z ?w] => set (m1 := activated x y z w) end. assert (V : view m1 = Some (k, Some (xl, xu, yl, yu))) by (unfold m1, activated; cbn [view]; now rewrite Sh). assert (D : data m1 = sub (transpose a) (xl, xu, yl, yu)) by (unfold data; rewrite V; now apply (part_of _ _ (Some (xl, xu, yl, yu)) h)). assert (Hm : hdus m1 = hdus m) by reflexivity. unfold edit. rewrite V, Hm, H, A, D. cbn [with_hdus hdus]. unfold at_. rewrite set_hdu_nth, Nat.eqb_refl, H. cbn [option_map pixels].
    set (d := Arr _ _ _). change (ny (transpose (put (transpose a) (xl, xu, yl, yu) d))) with (ny a). change (nx (transpose (put (transpose a) (xl, xu, yl, yu) d))) with (nx a). replace ((i <? ny a)%nat && (j <? nx a)%nat) with true by (symmetry; rewrite andb_true_iff, !Nat.ltb_lt; lia). f_equal. change (px (transpose (put (transpose a) (xl, xu, yl, yu) d)) j i) with (px (put (transpose a) (xl, xu, yl, yu) d) i j).
    destruct (put_spec (transpose a) xl xu yl yu d i j F) as (G & _). rewrite (G B). unfold d. cbn [px]. f_equal. destruct (sub_shows (transpose a) xl xu yl yu F) as (_ & _ & Sp). rewrite (Sp i j B). reflexivity.
Qed.
(** ** Example: a file with two images *)
Definition im1 : arr := Arr 2 3 (fun y x => INR (10 * y + x)).
Definition im2 : arr := Arr 4 4 (fun y x => INR (y + x)).
Definition file2 : list hdu := [HDU (Some im1) (Keys (Some 2) None None (Some 25) None); HDU (Some im2) (Keys None None None None None)].
Example opened2 : exists m, newFits (SFile "two.fits" file2) None 0 = Ok m /\ current m 0 im1 /\ zpt m = Some 25 /\ pixscale m = Some (2, 2) /\ nx (data m) = 3%nat /\ ny (data m) = 2%nat /\ px (data m) 2 1 = INR 12 /\
  exists m', setHdu m 1 = (m', Ok tt) /\ current m' 1 im2 /\ nx (data m') = 4%nat /\ current (run m [OHdu 1; OSelect (Box (0, 2, 1, 3)%Z)]) 1 im2.
Proof.
  eexists. split; [reflexivity|]. split; [split; [reflexivity|split; [reflexivity|eexists; split; reflexivity]]|]. split; [reflexivity|]. split; [reflexivity|]. split; [reflexivity|]. split; [reflexivity|]. split; [reflexivity|]. eexists. split; [reflexivity|]. split; [split; [reflexivity|split; [reflexivity|eexists; split; reflexivity]]|]. split; [reflexivity|]. split; [reflexivity|split; [reflexivity|eexists; split; reflexivity]].
Qed.
(** C126: the number of an HDU counts from the start, or from the end if it is negative *)
Theorem C126_numbers : forall n z k, position n z = Some k <-> (k < n)%nat /\ (z = Z.of_nat k \/ z = (Z.of_nat k - Z.of_nat n)%Z).
Proof.
  intros n z k. unfold position. destruct (Z.ltb_spec z 0); [destruct (Z.ltb_spec (z + Z.of_nat n) 0)|destruct (Z.ltb_spec z (Z.of_nat n))].
  - split; [discriminate|lia].
  - split; [intros E; injection E as <-; lia|intros (A & B); f_equal; lia].
  - split; [intros E; injection E as <-; lia|intros (A & B); f_equal; lia].
  - split; [discriminate|lia].
Qed.
