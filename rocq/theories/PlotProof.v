(** * PlotProof: the plots of a project script (C118) *)
From Coq Require Import List Bool String Ascii Arith Lia Permutation.
From Verif Require Import PyBase PubModel PubProps IoModel RegModel RegProof PlotModel.
Import ListNotations.

(** ** Patterns *)
(** a text that a pattern describes: a star stands for anything *)
Inductive Glob : str -> str -> Prop :=
| Gnil : Glob [] []
| Gchar c p s : c <> "*"%char -> Glob p s -> Glob (c :: p) (c :: s)
| Gstar p w s : Glob p s -> Glob ("*"%char :: p) (w ++ s).
Lemma rmatch_any p s : rmatch (star :: p) s = true <-> exists u r, s = u ++ r /\ rmatch p r = true.
Proof.
  cbn [rmatch]. change (star =a star) with true. cbv iota. set (any := fix any (s : str) : bool := rmatch p s || match s with [] => false | _ :: r => any r end).
  assert (G : any s = true <-> exists u r, s = u ++ r /\ rmatch p r = true); [|exact G]. induction s as [|a s I].
  - cbn. rewrite orb_false_r. split; [intros H; now exists [], []|]. intros (u & r & E & H). destruct u; [|discriminate]. cbn in E. now subst r.
  - change (any (a :: s)) with (rmatch p (a :: s) || any s). rewrite orb_true_iff, I. split.
    + intros [H|(u & r & -> & H)]; [now exists [], (a :: s)|]. now exists (a :: u), r.
    + intros (u & r & E & H). destruct u as [|b u]; [left; cbn in E; now subst r|]. cbn in E. injection E as -> ->. right. now exists u, r.
Qed.
Lemma rmatch_spec p : forall s, rmatch p s = true <-> exists w r, s = w ++ r /\ Glob p w.
Proof.
  induction p as [|c p I]; intros s.
  - cbn [rmatch]. split; [intros _; exists [], s; split; [reflexivity|constructor]|trivial].
  - destruct (ascii_dec c star) as [->|N].
    + rewrite rmatch_any. split.
      * intros (u & r & -> & H). apply I in H. destruct H as (w & r' & -> & G). exists (u ++ w), r'. split; [now rewrite app_assoc|]. now constructor.
      * intros (w & r & -> & G). inversion G; subst; [contradiction|]. match goal with H : Glob p ?s |- _ => exists w0, (s ++ r) end. split; [now rewrite app_assoc|]. apply I. eauto.
    + cbn [rmatch]. assert (E : (c =a star) = false) by now apply neqa. rewrite E. destruct s as [|a s].
      * split; [discriminate|]. intros (w & r & E' & G). inversion G; subst; [discriminate|contradiction].
      * rewrite andb_true_iff, eqa, I. split.
        -- intros (-> & w & r & -> & G). exists (c :: w), r. split; [reflexivity|]. now constructor.
        -- intros (w & r & E' & G). inversion G; subst; [|contradiction]. cbn in E'. injection E' as -> ->. eauto.
Qed.
Lemma combine_fst {A B} (l : list A) : forall k : list B, List.length k = List.length l -> map fst (combine l k) = l.
Proof. induction l as [|a l I]; intros k E; [reflexivity|]. destruct k as [|b k]; [discriminate|]. cbn. f_equal. apply I. cbn in E. lia. Qed.
Section Plots.
Variable val : Type.
Notation pfun := (pfun val).
Notation plots := (plots val).
Notation item := (str * (pfun * str * nat))%type.
(** a name is selected by a pattern if it begins as the pattern says *)
Theorem pattern_selects (st : plots) s n : In "*"%char s -> In n (select val st (Names s)) <-> has n (plotreg val st) = true /\ exists w r, n = w ++ r /\ Glob s w.
Proof.
  intros H. cbn [select]. assert (X : existsb (fun a => a =a star) s = true) by (apply existsb_exists; exists "*"%char; split; [exact H|reflexivity]). rewrite X, filter_In, rmatch_spec, has_in. reflexivity.
Qed.
Lemma glob_plain p : ~ In "*"%char p -> forall w, Glob p w <-> w = p.
Proof.
  induction p as [|c p I]; intros N w; [split; [now inversion 1|intros ->; constructor]|]. assert (Np : ~ In "*"%char p) by (intros X; apply N; now right). split.
  - inversion 1; subst; [f_equal; now apply I|]. exfalso. apply N. now left.
  - intros ->. constructor; [intros ->; apply N; now left|now apply I].
Qed.
Lemma glob_app p q : forall w, Glob p w -> forall v, Glob q v -> Glob (p ++ q) (w ++ v).
Proof. intros w G. induction G; intros v Gv; cbn [app]; [exact Gv|constructor; auto|]. rewrite <- app_assoc. constructor. auto. Qed.
Theorem pattern_prefix (st : plots) p n : ~ In "*"%char p -> In n (select val st (Names (p ++ L "*"))) <-> has n (plotreg val st) = true /\ exists r, n = p ++ r.
Proof.
  intros N. rewrite pattern_selects by (apply in_app_iff; right; now left). split; intros (H & K); (split; [exact H|]).
  - destruct K as (w & r & -> & G). clear - G N. assert (E : exists u, w = p ++ u); [|destruct E as (u & ->); exists (u ++ r); now rewrite app_assoc]. revert w G. induction p as [|c p I]; intros w G; [now exists w|]. cbn [app] in G. inversion G; subst; [|exfalso; apply N; now left]. destruct (I (fun X => N (or_intror X)) _ H3) as (u & ->). now exists u.
  - destruct K as (r & ->). exists (p ++ []), r. split; [now rewrite app_nil_r|]. apply glob_app; [now apply glob_plain|]. change (@nil ascii) with (@nil ascii ++ []). apply (Gstar [] []). constructor.
Qed.
(** ** Lookup and the interactive flag *)
Variable order : list item -> list item.
Hypothesis order_perm : forall d, Permutation (order d) d.
Lemma plot_dict_unknown (st : plots) l : forall d, (exists p n, In (p, n) l /\ has p (plotreg val st) = false) -> plot_dict val st l d = Raise KeyError.
Proof.
  induction l as [|(p, n) l I]; intros d (q & m & H & K); [contradiction|]. cbn [plot_dict]. destruct (assoc p (plotreg val st)) as [(f, t)|] eqn:E; [|reflexivity]. apply I. destruct H as [H|H]; [injection H as -> ->; unfold has in K; rewrite E in K; discriminate|eauto].
Qed.
Lemma in_combine_names {A} (l : list str) (k : list A) x : List.length k = List.length l -> In x l -> exists n, In (x, n) (combine l k).
Proof.
  revert k. induction l as [|y l I]; intros k E H; [contradiction|]. destruct k as [|n k]; [discriminate|]. cbn [combine]. destruct H as [->|H]; [exists n; now left|]. destruct (I k) as (m & M); [cbn in E; lia|exact H|]. exists m. now right.
Qed.
Definition numbers (figs : option (list nat)) (n : nat) : list nat := match figs with None => seq 1 n | Some l => l end.
Theorem unknown_plot (st : plots) sel figs argd save ov cv w x : List.length (numbers figs (List.length (select val st sel))) = List.length (select val st sel) -> In x (select val st sel) -> has x (plotreg val st) = false -> make_plots val order cv st sel figs argd save ov w = (w, Some KeyError).
Proof.
  intros E H K. unfold make_plots. fold (numbers figs (List.length (select val st sel))). rewrite E, Nat.eqb_refl. cbn [negb]. destruct (in_combine_names _ _ x E H) as (n & N). rewrite plot_dict_unknown; [reflexivity|eauto].
Qed.
Lemma all_plots_inter save ov cv argd l : forall w, inter w = false -> inter (fst (all_plots val save ov cv argd w l)) = false.
Proof.
  induction l as [|x l I]; intros w H; [exact H|]. cbn [all_plots]. assert (O : inter (fst (one_plot val save ov cv argd w x)) = false). { destruct x as (name, ((f, t), n)). unfold one_plot. destruct (call val f argd); [cbn; now destruct (inside _ _)|]. destruct save as [d|]; [|cbn; now destruct (inside _ _)]. destruct (save_plot d name t ov cv _). cbn. now destruct (inside _ _). }
  destruct (one_plot val save ov cv argd w x) as (w1, [e|]); [exact O|]. now apply I.
Qed.
(** the interactive mode of matplotlib is what it was, whatever a plot function does *)
Theorem interactive_kept (st : plots) sel figs argd save ov cv w : inter (fst (make_plots val order cv st sel figs argd save ov w)) = inter w.
Proof.
  unfold make_plots. destruct (negb _); [reflexivity|]. destruct (plot_dict _ _ _ _) as [d|e|]; [|reflexivity|reflexivity]. pose proof (all_plots_inter (save_dir save) ov cv argd (order d) (W false (files w) (drawn w)) eq_refl) as X.
  destruct (all_plots val (save_dir save) ov cv argd (W false (files w) (drawn w)) (order d)) as (w', e). cbn [fst] in *. destruct (inter w) eqn:E; [reflexivity|exact X].
Qed.
(** ** What is drawn and saved *)
Definition tag (x : item) : str * nat := (fst x, snd (snd x)).
Definition ft (x : item) : str := snd (fst (snd x)).
Lemma one_drawn save ov cv argd w x : drawn (fst (one_plot val save ov cv argd w x)) = drawn w ++ [tag x].
Proof. destruct x as (name, ((f, t), n)). unfold one_plot. destruct (call val f argd); [reflexivity|]. destruct save as [d|]; [|reflexivity]. now destruct (save_plot d name t ov cv _). Qed.
Lemma all_split save ov cv argd l : forall w w' e, all_plots val save ov cv argd w l = (w', e) -> (e = None /\ drawn w' = drawn w ++ map tag l) \/ (e <> None /\ exists l1 x l2 w1, l = l1 ++ x :: l2 /\ drawn w' = drawn w ++ map tag (l1 ++ [x]) /\ all_plots val save ov cv argd w l1 = (w1, None) /\ one_plot val save ov cv argd w1 x = (w', e)).
Proof.
  induction l as [|x l I]; intros w w' e H; cbn [all_plots] in H; [injection H as <- <-; left; split; [reflexivity|symmetry; apply app_nil_r]|].
  pose proof (one_drawn save ov cv argd w x) as D. destruct (one_plot val save ov cv argd w x) as (w1, [e1|]) eqn:E; cbn [fst] in D.
  - injection H as <- <-. right. split; [discriminate|]. exists [], x, l, w. repeat split; [exact D|exact E].
  - destruct (I w1 w' e H) as [(-> & D')|(N & l1 & y & l2 & w2 & -> & D' & A & O)].
    + left. split; [reflexivity|]. rewrite D', D. cbn [map]. now rewrite <- app_assoc.
    + right. split; [exact N|]. exists (x :: l1), y, l2, w2. repeat split; [|cbn [all_plots]; now rewrite E|exact O]. rewrite D', D. cbn [app map]. now rewrite <- app_assoc.
Qed.
(** the files of a plot *)
Definition file_of (d name t f : str) : Prop := exists exts cv, extensions t = Some (exts, cv) /\ (In f (map (filename d name) exts) \/ (cv = true /\ f = filename d name (L "eps"))).
Lemma save_exts_other d name ov cv exts : forall st f, ~ In f (map (filename d name) exts) -> assoc f (fst (fold_left (save_ext d name ov cv) exts st)) = assoc f (fst st).
Proof.
  induction exts as [|x exts I]; intros st f N; cbn [fold_left]; [reflexivity|]. rewrite I by (intros X; apply N; now right). unfold save_ext. destruct (negb ov && has (filename d name x) (fst st)); [reflexivity|]. cbn [fst]. apply assoc_put_other. intros ->. apply N. now left.
Qed.
Lemma save_plot_other d name t ov cv fs f : ~ file_of d name t f -> assoc f (fst (save_plot d name t ov cv fs)) = assoc f fs.
Proof.
  intros N. unfold save_plot. destruct (extensions t) as [(exts, c)|] eqn:E; [|reflexivity]. assert (N1 : ~ In f (map (filename d name) exts)) by (intros X; apply N; exists exts, c; auto).
  pose proof (save_exts_other d name ov c exts (fs, false) f N1) as H. assert (C : snd (fold_left (save_ext d name ov c) exts (fs, false)) = true -> c = true).
  { assert (G : forall l st, snd (fold_left (save_ext d name ov c) l st) = true -> snd st = true \/ c = true). { induction l as [|x l I]; intros st K; cbn [fold_left] in K; [now left|]. apply I in K. destruct K as [K|K]; [|now right]. unfold save_ext in K. destruct (negb ov && has _ _); [discriminate|]. cbn in K. apply andb_true_iff in K. now right. } intros K. apply G in K. destruct K as [K|K]; [discriminate|exact K]. }
  destruct (fold_left (save_ext d name ov c) exts (fs, false)) as (fs', conv). cbn [fst snd] in *. destruct conv; [|exact H]. destruct cv; [|exact H]. cbn [fst]. rewrite assoc_put_other; [exact H|]. intros ->. apply N. exists exts, c. split; [exact E|]. right. split; [now apply C|reflexivity].
Qed.
Definition belongs (save : option str) (x : item) (f : str) : Prop := exists d, save = Some d /\ file_of d (fst x) (ft x) f.
Lemma one_other save ov cv argd w x f : ~ belongs save x f -> assoc f (files (fst (one_plot val save ov cv argd w x))) = assoc f (files w).
Proof.
  intros N. destruct x as (name, ((g, t), n)). unfold one_plot. destruct (call val g argd); [reflexivity|]. destruct save as [d|]; [|reflexivity]. pose proof (save_plot_other d name t ov cv (files w) f) as H. cbn [files]. destruct (save_plot d name t ov cv (files w)) as (fs, e). cbn [fst files] in *. apply H. intros F. apply N. exists d. split; [reflexivity|exact F].
Qed.
Lemma all_other save ov cv argd l : forall w f, (forall x, In x l -> ~ belongs save x f) -> assoc f (files (fst (all_plots val save ov cv argd w l))) = assoc f (files w).
Proof.
  induction l as [|x l I]; intros w f N; [reflexivity|]. cbn [all_plots]. pose proof (one_other save ov cv argd w x f (N x (or_introl eq_refl))) as O. destruct (one_plot val save ov cv argd w x) as (w1, [e|]); cbn [fst] in *; [exact O|]. rewrite I by (intros; apply N; now right). exact O.
Qed.
(** with overwrite off, and no conversion, a file that is there stays as it is *)
Lemma save_exts_kept d name cv exts : forall st f v, assoc f (fst st) = Some v -> assoc f (fst (fold_left (save_ext d name false cv) exts st)) = Some v.
Proof.
  induction exts as [|x exts I]; intros st f v H; cbn [fold_left]; [exact H|]. apply I. unfold save_ext. cbn [negb andb]. destruct (has (filename d name x) (fst st)) eqn:E; [exact H|]. cbn [fst]. rewrite assoc_put_other; [exact H|]. intros ->. unfold has in E. rewrite H in E. discriminate.
Qed.
Definition converts (t : str) : Prop := exists exts, extensions t = Some (exts, true).
Lemma no_conv d name ov exts : forall st, snd st = false -> snd (fold_left (save_ext d name ov false) exts st) = false.
Proof. induction exts as [|x exts I]; intros st H; cbn [fold_left]; [exact H|]. apply I. unfold save_ext. now destruct (negb ov && has _ _). Qed.
Lemma save_plot_kept d name t cv fs f v : ~ converts t -> assoc f fs = Some v -> assoc f (fst (save_plot d name t false cv fs)) = Some v.
Proof.
  intros N H. unfold save_plot. destruct (extensions t) as [(exts, c)|] eqn:E; [|exact H]. destruct c; [exfalso; apply N; now exists exts|]. pose proof (save_exts_kept d name false exts (fs, false) f v H) as K. pose proof (no_conv d name false exts (fs, false) eq_refl) as C. destruct (fold_left (save_ext d name false false) exts (fs, false)) as (fs', conv). cbn [fst snd] in *. subst conv. exact K.
Qed.
Lemma all_kept save cv argd l : (forall x, In x l -> ~ converts (ft x)) -> forall w f v, assoc f (files w) = Some v -> assoc f (files (fst (all_plots val save false cv argd w l))) = Some v.
Proof.
  intros N. induction l as [|x l I]; intros w f v H; [exact H|]. cbn [all_plots]. assert (O : assoc f (files (fst (one_plot val save false cv argd w x))) = Some v). { specialize (N x (or_introl eq_refl)). destruct x as (name, ((g, t), n)). unfold one_plot. destruct (call val g argd); [exact H|]. destruct save as [d|]; [|exact H]. cbn [files]. pose proof (save_plot_kept d name t cv (files w) f v N H) as K. destruct (save_plot d name t false cv (files w)). exact K. }
  destruct (one_plot val save false cv argd w x) as (w1, [e|]); cbn [fst] in *; [exact O|]. apply I; [intros; apply N; now right|exact O].
Qed.
(** a plot that is saved *)
Lemma save_exts_saved d name ov cv exts : forall st f, In f (map (filename d name) exts) -> (ov = true \/ has f (fst st) = false) -> assoc f (fst (fold_left (save_ext d name ov cv) exts st)) = Some (Fig name).
Proof.
  induction exts as [|x exts I]; intros st f H K; [contradiction|]. cbn [fold_left]. destruct (in_dec (list_eq_dec ascii_dec) f (map (filename d name) exts)) as [Y|Y].
  - destruct (list_eq_dec ascii_dec f (filename d name x)) as [->|Nf].
    + destruct ov; [apply I; auto|]. destruct K as [K|K]; [discriminate|]. unfold save_ext at 2. cbn [negb andb]. rewrite K. cbn [fst]. apply save_exts_kept. cbn [fst]. apply assoc_put_same.
    + apply I; [exact Y|]. destruct K as [K|K]; [now left|]. right. unfold save_ext. destruct (negb ov && has _ _); [exact K|]. cbn [fst]. rewrite has_put, K, orb_false_r. now apply eqb_neq.
  - destruct H as [<-|H]; [|contradiction]. rewrite save_exts_other by exact Y. unfold save_ext. destruct K as [->|K]; [cbn [negb andb]; apply assoc_put_same|]. rewrite K, andb_false_r. apply assoc_put_same.
Qed.
Lemma one_saved d ov cv argd w x w' f exts : one_plot val (Some d) ov cv argd w x = (w', None) -> extensions (ft x) = Some (exts, false) -> In f (map (filename d (fst x)) exts) -> (ov = true \/ has f (files w) = false) -> assoc f (files w') = Some (Fig (fst x)).
Proof.
  destruct x as (name, ((g, t), n)). unfold one_plot, ft. cbn [fst snd]. intros H E F K. destruct (call val g argd); [discriminate|]. cbn [files drawn inter] in H. unfold save_plot in H. rewrite E in H. pose proof (no_conv d name ov exts (files w, false) eq_refl) as C. pose proof (save_exts_saved d name ov false exts (files w, false) f F K) as S. destruct (fold_left (save_ext d name ov false) exts (files w, false)) as (fs', conv). cbn [fst snd] in *. subst conv. injection H as <-. exact S.
Qed.
Lemma filename_inj d n1 n2 e1 e2 : ~ In "."%char n1 -> ~ In "."%char n2 -> filename d n1 e1 = filename d n2 e2 -> n1 = n2.
Proof.
  intros N1 N2 E. unfold filename in E. apply app_inv_head in E. change (L ".") with ["."%char] in E. cbn [app] in E. revert n2 N2 E. induction n1 as [|a n1 I]; intros n2 N2 E; destruct n2 as [|b n2]; trivial; cbn [app] in E.
  - injection E as E _. exfalso. apply N2. left. congruence.
  - injection E as E _. exfalso. apply N1. left. congruence.
  - injection E as -> E. f_equal. apply I; trivial; intros X; [apply N1|apply N2]; now right.
Qed.
Lemma file_of_inj d n1 t1 n2 t2 f : ~ In "."%char n1 -> ~ In "."%char n2 -> file_of d n1 t1 f -> file_of d n2 t2 f -> n1 = n2.
Proof.
  intros N1 N2 (e1 & c1 & _ & F1) (e2 & c2 & _ & F2). assert (G1 : exists x, f = filename d n1 x) by (destruct F1 as [F1|(_ & F1)]; [apply in_map_iff in F1; destruct F1 as (x & <- & _); now exists x|eauto]). assert (G2 : exists x, f = filename d n2 x) by (destruct F2 as [F2|(_ & F2)]; [apply in_map_iff in F2; destruct F2 as (x & <- & _); now exists x|eauto]).
  destruct G1 as (x & ->). destruct G2 as (y & E). now apply (filename_inj d n1 n2 x y).
Qed.
Lemma all_saved d ov cv argd l : NoDup (map fst l) -> (forall x, In x l -> ~ In "."%char (fst x)) -> forall w w' x f exts, all_plots val (Some d) ov cv argd w l = (w', None) -> In x l -> extensions (ft x) = Some (exts, false) -> In f (map (filename d (fst x)) exts) -> (ov = true \/ has f (files w) = false) -> assoc f (files w') = Some (Fig (fst x)).
Proof.
  intros ND Nd. induction l as [|y l I]; intros w w' x f exts H X E F K; [contradiction|]. cbn [all_plots] in H. cbn [map] in ND. inversion ND as [|? ? Ny Nl]; subst. destruct (one_plot val (Some d) ov cv argd w y) as (w1, [e|]) eqn:O; [discriminate|].
  assert (Fx : file_of d (fst x) (ft x) f) by (exists exts, false; auto). destruct X as [->|X].
  - pose proof (one_saved d ov cv argd w x w1 f exts O E F K) as S. pose proof (all_other (Some d) ov cv argd l w1 f) as A. rewrite H in A. cbn [fst] in A. rewrite A; [exact S|]. intros z Z (d' & Ed & B). injection Ed as <-. apply Ny. rewrite (file_of_inj d (fst x) (ft x) (fst z) (ft z) f (Nd x (or_introl eq_refl)) (Nd z (or_intror Z)) Fx B). now apply in_map.
  - apply (I Nl (fun z Z => Nd z (or_intror Z)) w1 w' x f exts); trivial. destruct K as [K|K]; [now left|]. right. pose proof (one_other (Some d) ov cv argd w y f) as A. rewrite O in A. cbn [fst] in A. unfold has in *. rewrite A; [exact K|]. intros (d' & Ed & B). injection Ed as <-. apply Ny. rewrite (file_of_inj d (fst y) (ft y) (fst x) (ft x) f (Nd y (or_introl eq_refl)) (Nd x (or_intror X)) B Fx). now apply in_map.
Qed.
Lemma plot_dict_ok (st : plots) l : forall d0, NoDup (map fst d0 ++ map fst l) -> (forall p n, In (p, n) l -> has p (plotreg val st) = true) ->
  exists d, plot_dict val st l d0 = Ok (d0 ++ d) /\ map tag d = l /\ (forall x, In x d -> exists f, assoc (fst x) (plotreg val st) = Some (f, ft x)).
Proof.
  induction l as [|(p, n) l I]; intros d0 ND K.
  - exists []. cbn. rewrite app_nil_r. repeat split; contradiction.
  - cbn [plot_dict]. pose proof (K p n (or_introl eq_refl)) as Kp. unfold has in Kp. destruct (assoc p (plotreg val st)) as [(f, t)|] eqn:E; [|discriminate]. cbn [map fst] in ND.
    assert (Np : ~ In p (map fst d0)). { apply NoDup_remove_2 in ND. intros X. apply ND. apply in_app_iff. now left. }
    assert (P : put p (f, t, n) d0 = d0 ++ [(p, (f, t, n))]). { clear - Np. induction d0 as [|(q, y) d0 I]; [reflexivity|]. cbn [put app]. cbn [map fst] in Np. destruct (str_eqb p q) eqn:Eq; [apply eqs in Eq; exfalso; apply Np; now left|]. rewrite I; [reflexivity|]. intros X. apply Np. now right. }
    rewrite P. destruct (I (d0 ++ [(p, (f, t, n))])) as (d & E1 & E2 & E3).
    + rewrite map_app. cbn [map fst]. rewrite <- app_assoc. exact ND.
    + intros q m Q. apply (K q m). now right.
    + exists ((p, (f, t, n)) :: d). rewrite E1, <- app_assoc. split; [reflexivity|]. split; [cbn [map tag fst snd]; now rewrite E2|]. intros x [<-|X]; [exists f; exact E|now apply E3].
Qed.
(** the directory of the files *)
Inductive saves_in : saving -> str -> Prop :=
| SHere : saves_in Here (L "./")
| SSlash d : saves_in (In_ (d ++ L "/")) (d ++ L "/")
| SPlain d a : a <> "/"%char -> saves_in (In_ (d ++ [a])) (d ++ [a] ++ L "/")
| SRoot : saves_in (In_ []) (L "/").
Lemma saves_dir s d : save_dir s = Some d <-> saves_in s d.
Proof.
  split.
  - destruct s as [| |x]; cbn [save_dir]; intros H; [discriminate|injection H as <-; constructor|]. destruct (rev x) as [|a y] eqn:E.
    + injection H as <-. apply (f_equal (@rev ascii)) in E. rewrite rev_involutive in E. subst x. constructor.
    + apply (f_equal (@rev ascii)) in E. rewrite rev_involutive in E. cbn [rev] in E. subst x. destruct (a =a "/"%char) eqn:A; injection H as <-; [apply eqa in A; subst a; constructor|]. rewrite <- app_assoc. constructor. now apply neqa.
  - intros H. destruct H as [|d|d a N|]; cbn [save_dir]; try reflexivity; rewrite rev_app_distr; cbn [rev app]; [reflexivity|]. apply neqa in N. rewrite N. now rewrite <- app_assoc.
Qed.
Lemma put_in {A} k (v : A) d x : In x (put k v d) -> x = (k, v) \/ In x d.
Proof. induction d as [|(k', v') d I]; cbn [put]; [intros [<-|[]]; now left|]. destruct (str_eqb k k') eqn:E; cbn [In]; [apply eqs in E; subst k'; intros [<-|H]; auto|]. intros [<-|H]; [auto|]. destruct (I H); auto. Qed.
Lemma plot_dict_fun (st : plots) l : forall d0 d, (forall x, In x d0 -> assoc (fst x) (plotreg val st) = Some (fst (snd x))) -> plot_dict val st l d0 = Ok d -> forall x, In x d -> assoc (fst x) (plotreg val st) = Some (fst (snd x)).
Proof.
  induction l as [|(p, n) l I]; intros d0 d K H x X; cbn [plot_dict] in H; [injection H as <-; now apply K|]. destruct (assoc p (plotreg val st)) as [(f, t)|] eqn:E; [|discriminate]. refine (I (put p (f, t, n) d0) d _ H x X). intros y Y. apply put_in in Y. destruct Y as [->|Y]; [exact E|now apply K].
Qed.
Lemma all_called save ov cv argd l : forall w w', all_plots val save ov cv argd w l = (w', None) -> forall x, In x l -> call val (fst (fst (snd x))) argd = None.
Proof.
  induction l as [|y l I]; intros w w' H x X; [contradiction|]. cbn [all_plots] in H. destruct (one_plot val save ov cv argd w y) as (w1, [e|]) eqn:O; [discriminate|]. destruct X as [->|X]; [|now apply (I w1 w' H)]. destruct x as (nm, ((f, t), n)). cbn [fst snd]. unfold one_plot in O. destruct (call val f argd); [discriminate|reflexivity].
Qed.
Lemma all_none ov cv argd l : forall w w' e, all_plots val None ov cv argd w l = (w', e) -> files w' = files w.
Proof.
  induction l as [|x l I]; intros w w' e A; cbn [all_plots] in A; [now injection A as <- _|].
  destruct (one_plot val None ov cv argd w x) as (w2, e2) eqn:O. assert (E : files w2 = files w). { transitivity (files (fst (one_plot val None ov cv argd w x))); [now rewrite O|]. destruct x as (nm, ((f, t), n)). unfold one_plot. destruct (call val f argd); reflexivity. } destruct e2; [injection A as <- _; exact E|]. rewrite <- E. now apply (I _ _ e).
Qed.
Lemma fetch_spec names argd vs : fetch val names argd = Ok vs -> Forall2 (fun n v => assoc n argd = Some v) names vs.
Proof.
  revert vs. induction names as [|n names I]; intros vs H; cbn [fetch] in H; [injection H as <-; constructor|]. destruct (assoc n argd) as [v|] eqn:E; [|discriminate]. destruct (fetch val names argd) as [l| |]; try discriminate. injection H as <-. constructor; [exact E|now apply I].
Qed.
Lemma fetch_ok names argd : fetch val names argd <> OutOfFuel.
Proof. induction names as [|n names I]; cbn [fetch]; [discriminate|]. destruct (assoc n argd); [|discriminate]. destruct (fetch val names argd); try discriminate. congruence. Qed.
(** ** make_plots for known plots, each asked for once *)
Section Known.
Variable st : plots.
Variable sel : selection.
Variable figs : option (list nat).
Notation names := (select val st sel).
Notation nums := (numbers figs (List.length names)).
Hypothesis names_once : NoDup names.
Hypothesis names_known : forall p, In p names -> has p (plotreg val st) = true.
Hypothesis nums_length : List.length nums = List.length names.
Lemma make_split cv argd save ov w w' e : make_plots val order cv st sel figs argd save ov w = (w', e) -> exists d w1, Permutation (map tag d) (combine names nums) /\ NoDup (map fst d) /\ (forall x, In x d -> exists f, assoc (fst x) (plotreg val st) = Some (f, ft x)) /\
  all_plots val (save_dir save) ov cv argd (W false (files w) (drawn w)) d = (w1, e) /\ files w' = files w1 /\ drawn w' = drawn w1.
Proof.
  unfold make_plots. fold (numbers figs (List.length names)). rewrite nums_length, Nat.eqb_refl. cbn [negb]. destruct (plot_dict_ok st (combine names nums) []) as (d & E & T & A).
  - cbn [map app]. now rewrite combine_fst.
  - intros p n H. apply names_known. now apply in_combine_l in H.
  - cbn [app] in E. rewrite E. destruct (all_plots val (save_dir save) ov cv argd (W false (files w) (drawn w)) (order d)) as (w1, e1) eqn:P. intros H. injection H as H1 H2. subst e1. exists (order d), w1. split; [rewrite <- T; apply Permutation_map, order_perm|]. split.
    + apply (Permutation_NoDup (Permutation_map fst (Permutation_sym (order_perm d)))). replace (map fst d) with (map fst (map tag d)) by (rewrite map_map; reflexivity). rewrite T. now rewrite combine_fst.
    + split; [intros x X; apply A; now apply (Permutation_in x (order_perm d))|]. split; [exact P|]. subst w'. destruct (inter w); split; reflexivity.
Qed.
(** every plot is drawn once, in the figure with its number *)
Theorem plots_made cv argd save ov w w' : make_plots val order cv st sel figs argd save ov w = (w', None) -> exists l, Permutation l (combine names nums) /\ drawn w' = drawn w ++ l.
Proof.
  intros H. apply make_split in H. destruct H as (d & w1 & P & _ & _ & A & _ & D). exists (map tag d). split; [exact P|]. rewrite D. apply all_split in A. destruct A as [(_ & A)|(N & _)]; [exact A|congruence].
Qed.
(** the type of a plot and its files *)
Definition plot_file (d p f : str) : Prop := exists g t, assoc p (plotreg val st) = Some (g, t) /\ file_of d p t f.
Lemma belongs_file d x f : (exists g, assoc (fst x) (plotreg val st) = Some (g, ft x)) -> belongs (Some d) x f -> plot_file d (fst x) f.
Proof. intros (g & G) (d' & E & F). injection E as <-. now exists g, (ft x). Qed.
(** if one fails, those before it have been drawn, those after it have neither been drawn nor saved *)
Theorem plots_failed cv argd save ov w w' e : make_plots val order cv st sel figs argd save ov w = (w', Some e) -> exists before p n after, Permutation (before ++ (p, n) :: after) (combine names nums) /\ drawn w' = drawn w ++ before ++ [(p, n)] /\
  forall f, (forall d q m, saves_in save d -> In (q, m) (before ++ [(p, n)]) -> ~ plot_file d q f) -> assoc f (files w') = assoc f (files w).
Proof.
  intros H. apply make_split in H. destruct H as (d & w1 & P & _ & K & A & F & D). apply all_split in A. destruct A as [(X & _)|(_ & l1 & x & l2 & w2 & E & Dr & A1 & O)]; [discriminate|]. exists (map tag l1), (fst x), (snd (snd x)), (map tag l2). split; [|split].
  - rewrite E, map_app in P. exact P.
  - rewrite D, Dr. cbn [drawn]. rewrite map_app. reflexivity.
  - intros f N. rewrite F. assert (G : forall y, In y (l1 ++ [x]) -> ~ belongs (save_dir save) y f). { intros y Y B. assert (Yd : In y d) by (rewrite E; apply in_app_iff; apply in_app_iff in Y; destruct Y as [Y|[->|[]]]; [now left|right; now left]). destruct (save_dir save) as [dir|] eqn:Sd; [|destruct B as (? & B & _); discriminate]. apply saves_dir in Sd. apply (N dir (fst y) (snd (snd y)) Sd); [|apply belongs_file; auto]. change [(fst x, snd (snd x))] with (map tag [x]). rewrite <- map_app. now apply (in_map tag). }
    pose proof (one_other (save_dir save) ov cv argd w2 x f) as O1. rewrite O in O1. cbn [fst] in O1. rewrite O1 by (apply G; apply in_app_iff; right; now left). pose proof (all_other (save_dir save) ov cv argd l1 (W false (files w) (drawn w)) f) as A2. rewrite A1 in A2. cbn [fst files] in A2. apply A2. intros y Y. apply G. apply in_app_iff. now left.
Qed.
(** no other files, whatever happens *)
Theorem plots_other_files cv argd save ov w f : (forall d p, saves_in save d -> In p names -> ~ plot_file d p f) -> assoc f (files (fst (make_plots val order cv st sel figs argd save ov w))) = assoc f (files w).
Proof.
  intros N. destruct (make_plots val order cv st sel figs argd save ov w) as (w', e) eqn:H. apply make_split in H. destruct H as (d & w1 & P & _ & K & A & F & _). cbn [fst]. rewrite F. pose proof (all_other (save_dir save) ov cv argd d (W false (files w) (drawn w)) f) as A2. rewrite A in A2. cbn [fst files] in A2. apply A2. intros x X B. destruct (save_dir save) as [dir|] eqn:Sd; [|destruct B as (? & B & _); discriminate]. apply saves_dir in Sd.
  apply (N dir (fst x) Sd); [|apply belongs_file; auto]. assert (In (tag x) (combine names nums)) by (apply (Permutation_in _ P); now apply in_map). unfold tag in H. now apply in_combine_l in H.
Qed.
(** without save nothing is written *)
Theorem nothing_saved cv argd ov w : files (fst (make_plots val order cv st sel figs argd NoSave ov w)) = files w.
Proof.
  destruct (make_plots val order cv st sel figs argd NoSave ov w) as (w', e) eqn:H. apply make_split in H. destruct H as (d & w1 & _ & _ & _ & A & F & _). cbn [fst]. rewrite F. clear F w'. cbn [save_dir] in A. apply all_none in A. exact A.
Qed.
(** every function is called with its arguments by name, or with all variables *)
Theorem plots_called cv argd save ov w w' p f t : make_plots val order cv st sel figs argd save ov w = (w', None) -> In p names -> assoc p (plotreg val st) = Some (f, t) ->
  (forall ns g, f = Args val ns g -> exists vs, Forall2 (fun n v => assoc n argd = Some v) ns vs /\ g vs = None) /\ (forall g, f = Kw val g -> g argd = None).
Proof.
  intros H Pn Ap. unfold make_plots in H. fold (numbers figs (List.length names)) in H. rewrite nums_length, Nat.eqb_refl in H. cbn [negb] in H. destruct (plot_dict_ok st (combine names nums) []) as (d & E & T & _).
  - cbn [map app]. now rewrite combine_fst.
  - intros q n Q. apply names_known. now apply in_combine_l in Q.
  - cbn [app] in E. pose proof (plot_dict_fun st (combine names nums) [] d (fun x X => False_ind _ X) E) as Fn. rewrite E in H. destruct (all_plots val (save_dir save) ov cv argd (W false (files w) (drawn w)) (order d)) as (w1, e1) eqn:P. injection H as H1 H2. subst e1.
    destruct (in_combine_names names nums p nums_length Pn) as (n & Hn). rewrite <- T in Hn. apply in_map_iff in Hn. destruct Hn as (y & Ty & Yl). unfold tag in Ty. injection Ty as Ty1 Ty2. pose proof (Fn y Yl) as Fy. rewrite Ty1, Ap in Fy. injection Fy as Fy.
    pose proof (all_called _ _ _ _ _ _ _ P y (Permutation_in y (Permutation_sym (order_perm d)) Yl)) as C. rewrite <- Fy in C. cbn [fst] in C. split.
    + intros ns g ->. cbn [call] in C. destruct (fetch val ns argd) as [vs|e|] eqn:Fe; [|discriminate|now apply fetch_ok in Fe]. exists vs. split; [now apply fetch_spec|exact C].
    + intros g ->. exact C.
Qed.
(** without overwrite no file is changed, if no plot is of a type that is converted *)
Theorem plots_not_overwritten cv argd save w f v : (forall p g t, In p names -> assoc p (plotreg val st) = Some (g, t) -> ~ converts t) -> assoc f (files w) = Some v -> assoc f (files (fst (make_plots val order cv st sel figs argd save false w))) = Some v.
Proof.
  intros N H0. destruct (make_plots val order cv st sel figs argd save false w) as (w', e) eqn:H. apply make_split in H. destruct H as (d & w1 & P & _ & K & A & F & _). cbn [fst]. rewrite F. pose proof (all_kept (save_dir save) cv argd d) as A2. assert (Nd : forall x, In x d -> ~ converts (ft x)). { intros x X. destruct (K x X) as (g & G). apply (N (fst x) g (ft x)); [|exact G]. assert (In (tag x) (combine names nums)) by (apply (Permutation_in _ P); now apply in_map). unfold tag in H. now apply in_combine_l in H. }
  specialize (A2 Nd (W false (files w) (drawn w)) f v H0). rewrite A in A2. exact A2.
Qed.
(** and all files wanted are there afterwards *)
Theorem plots_saved cv argd save ov w w' d p g t exts x : make_plots val order cv st sel figs argd save ov w = (w', None) -> saves_in save d -> (forall q, In q names -> ~ In "."%char q) -> In p names -> assoc p (plotreg val st) = Some (g, t) -> extensions t = Some (exts, false) -> In x exts ->
  ov = true \/ has (d ++ p ++ L "." ++ x) (files w) = false -> assoc (d ++ p ++ L "." ++ x) (files w') = Some (Fig p).
Proof.
  intros H Sd Nd Pn Ap Et Xe K. apply saves_dir in Sd. apply make_split in H. destruct H as (l & w1 & P & ND & Kl & A & F & _). rewrite F. rewrite Sd in A.
  destruct (in_combine_names names nums p nums_length Pn) as (n & Hn). assert (Y : In (p, n) (map tag l)) by (apply (Permutation_in _ (Permutation_sym P)); exact Hn). apply in_map_iff in Y. destruct Y as (y & Ty & Yl). destruct (Kl y Yl) as (g' & G'). unfold tag in Ty. injection Ty as Ty1 Ty2. rewrite Ty1, Ap in G'. injection G' as _ Ft.
  rewrite <- Ty1. apply (all_saved d ov cv argd l ND) with (w := W false (files w) (drawn w)) (exts := exts); trivial.
  - intros z Z. apply Nd. assert (In (tag z) (combine names nums)) by (apply (Permutation_in _ P); now apply in_map). unfold tag in H. now apply in_combine_l in H.
  - now rewrite <- Ft.
  - apply in_map_iff. exists x. split; [reflexivity|exact Xe].
  - rewrite Ty1. exact K.
Qed.
End Known.
(** ** Decorated functions *)
Notation deco := (str * pfun * str * mainarg)%type.
Definition reg_step (st : plots) (x : deco) : plots := let '(n, f, t, m) := x in fst (plotfunc val st n f t m).
Definition registered (ds : list deco) : plots := fold_left reg_step ds (PR val [] []).
Definition valid_type (t : str) : Prop := sub (L "mpl") t \/ sub (L "mayavi") t.
Lemma inside_sub p s : inside p s = true <-> sub p s.
Proof. unfold inside. destruct (find p s) as [(x, r)|] eqn:E; split; intros H; trivial; try discriminate; [apply find_spec in E; now exists x, r|]. exfalso. now apply (find_none_sub p s E). Qed.
Lemma type_cases t : (negb (inside (L "mpl") t) && negb (inside (L "mayavi") t) = false /\ valid_type t) \/ (negb (inside (L "mpl") t) && negb (inside (L "mayavi") t) = true /\ ~ valid_type t).
Proof.
  unfold valid_type. rewrite <- !inside_sub. destruct (inside (L "mpl") t), (inside (L "mayavi") t); cbn; try (left; split; [reflexivity|]; auto); right; split; [reflexivity|]. intros [H|H]; discriminate.
Qed.
Theorem deco_invalid (st : plots) n f t m : ~ valid_type t -> plotfunc val st n f t m = (st, Raise ValueError).
Proof. intros N. unfold plotfunc. destruct (type_cases t) as [(_ & V)|(-> & _)]; [contradiction|reflexivity]. Qed.
(** the last function of a name counts *)
Theorem deco_last ds n f t m ds' : valid_type t -> (forall f' t' m', In (n, f', t', m') ds' -> ~ valid_type t') -> assoc n (plotreg val (registered (ds ++ (n, f, t, m) :: ds'))) = Some (f, t).
Proof.
  intros V N. unfold registered. rewrite fold_left_app. cbn [fold_left]. set (st := fold_left reg_step ds (PR val [] [])). assert (E : assoc n (plotreg val (reg_step st (n, f, t, m))) = Some (f, t)). { unfold reg_step, plotfunc. destruct (type_cases t) as [(-> & _)|(_ & X)]; [|contradiction]. cbn [fst plotreg]. apply assoc_put_same. }
  revert E. generalize (reg_step st (n, f, t, m)). clear st V. induction ds' as [|(((n', f'), t'), m') ds' I]; intros st E; cbn [fold_left]; [exact E|]. apply I; [intros f1 t1 m1 X; apply (N f1 t1 m1); now right|]. unfold reg_step, plotfunc. destruct (type_cases t') as [(-> & V)|(-> & _)]; [|exact E]. cbn [fst plotreg]. rewrite assoc_put_other; [exact E|]. intros ->. apply (N f' t' m'); [now left|exact V].
Qed.
Definition key_of_main (m : mainarg) : option (option str) := match m with NotMain | Group [] => None | Main => Some None | Group g => Some (Some g) end.
Lemma key_eqb_spec a b : key_eqb a b = true <-> a = b.
Proof. destruct a as [x|], b as [y|]; cbn [key_eqb]; try (split; [discriminate|discriminate]); [|split; reflexivity]. rewrite eqs. split; [now intros ->|now injection 1]. Qed.
Lemma mainadd_get k n d k' : mainget k' (mainadd k n d) = if key_eqb k' k then Some (match mainget k d with Some l => l ++ [n] | None => [n] end) else mainget k' d.
Proof.
  induction d as [|(k0, l) d I]; cbn [mainadd mainget].
  - destruct (key_eqb k' k); reflexivity.
  - destruct (key_eqb k k0) eqn:E.
    + apply key_eqb_spec in E. subst k0. cbn [mainget]. now destruct (key_eqb k' k).
    + cbn [mainget]. destruct (key_eqb k' k0) eqn:E'; [|exact I]. apply key_eqb_spec in E'. subst k0. destruct (key_eqb k' k) eqn:E2; [|reflexivity]. apply key_eqb_spec in E2. subst k'. assert (X : key_eqb k k = true) by now apply key_eqb_spec. congruence.
Qed.
Lemma mainadd_all k n d x : In x (List.concat (map snd (mainadd k n d))) <-> x = n \/ In x (List.concat (map snd d)).
Proof.
  induction d as [|(k0, l) d I]; cbn [mainadd map List.concat snd]; [cbn; intuition|]. destruct (key_eqb k k0); cbn [map List.concat snd]; rewrite !in_app_iff; [cbn; intuition|]. rewrite I. intuition.
Qed.
Definition decorated (ds : list deco) (n : str) (k : option str) : Prop := exists f t m, In (n, f, t, m) ds /\ valid_type t /\ key_of_main m = Some k.
Lemma decorated_snoc ds n f t m n' k : decorated (ds ++ [(n, f, t, m)]) n' k <-> decorated ds n' k \/ (n' = n /\ valid_type t /\ key_of_main m = Some k).
Proof.
  split.
  - intros (f1 & t1 & m1 & H & V & K). apply in_app_iff in H. destruct H as [H|[H|[]]]; [left; now exists f1, t1, m1|]. injection H as -> -> -> ->. now right.
  - intros [(f1 & t1 & m1 & H & V & K)|(-> & V & K)]; [exists f1, t1, m1; split; [apply in_app_iff; now left|auto]|]. exists f, t, m. split; [apply in_app_iff; right; now left|auto].
Qed.
Lemma registered_main ds : (forall n, In n (List.concat (map snd (mainfigs val (registered ds)))) <-> exists k, decorated ds n k) /\ (forall k n, (exists l, mainget k (mainfigs val (registered ds)) = Some l /\ In n l) <-> decorated ds n k) /\ (forall k l, mainget k (mainfigs val (registered ds)) = Some l -> exists n, decorated ds n k) /\ (forall n k, decorated ds n k -> has n (plotreg val (registered ds)) = true).
Proof.
  induction ds as [|x ds (I1 & I2 & I3 & I4)] using rev_ind.
  - assert (N : forall n k, ~ decorated [] n k) by (intros n k (f & t & m & [] & _)). cbn. split; [|split; [|split]].
    + intros n. split; [intros []|intros (k & H); now apply N in H].
    + intros k n. split; [intros (l & X & _); discriminate|intros H; now apply N in H].
    + intros k l X. discriminate.
    + intros n k H. now apply N in H.
  - destruct x as (((n, f), t), m). assert (R : registered (ds ++ [(n, f, t, m)]) = reg_step (registered ds) (n, f, t, m)) by (unfold registered; now rewrite fold_left_app). rewrite R. cbn [reg_step]. unfold plotfunc. destruct (type_cases t) as [(-> & V)|(-> & V)].
    + cbn [fst plotreg mainfigs]. set (st := registered ds) in *. assert (M : (match m with NotMain | Group [] => mainfigs val st | Main => mainadd None n (mainfigs val st) | Group g => mainadd (Some g) n (mainfigs val st) end) = match key_of_main m with None => mainfigs val st | Some k => mainadd k n (mainfigs val st) end) by (destruct m as [| |[|a g]]; reflexivity). rewrite M. clear M.
      assert (D : forall n' k, decorated (ds ++ [(n, f, t, m)]) n' k <-> decorated ds n' k \/ (n' = n /\ key_of_main m = Some k)) by (intros; rewrite decorated_snoc; tauto).
      split; [|split; [|split]].
      * intros n'. setoid_rewrite D. destruct (key_of_main m) as [k|].
        -- rewrite mainadd_all, I1. split; [intros [->|(k' & H)]; eauto|]. intros (k' & [H|(-> & _)]); [right; eauto|now left].
        -- rewrite I1. split; [intros (k & H); eauto|]. intros (k & [H|(_ & H)]); [eauto|discriminate].
      * intros k' n'. rewrite D. destruct (key_of_main m) as [k|]; [|rewrite I2; split; [auto|intros [H|(_ & H)]; [exact H|discriminate]]]. rewrite <- I2, mainadd_get. destruct (key_eqb k' k) eqn:E.
        -- apply key_eqb_spec in E. subst k'. split.
           ++ intros (l & El & H). injection El as <-. destruct (mainget k (mainfigs val st)) as [l0|]; [apply in_app_iff in H; destruct H as [H|[->|[]]]; [left; eauto|now right]|destruct H as [->|[]]; now right].
           ++ intros [(l & El & H)|(-> & _)]; (eexists; split; [reflexivity|]); [rewrite El; apply in_app_iff; now left|]. destruct (mainget k (mainfigs val st)); [apply in_app_iff; right; now left|now left].
        -- split; [intros H; now left|]. intros [H|(_ & H)]; [exact H|]. injection H as ->. assert (X : key_eqb k' k' = true) by now apply key_eqb_spec. congruence.
      * intros k' l. setoid_rewrite D. destruct (key_of_main m) as [k|]; [|intros H; destruct (I3 k' l H) as (n' & H'); eauto]. rewrite mainadd_get. destruct (key_eqb k' k) eqn:E; [apply key_eqb_spec in E; subst k'; intros _; exists n; now right|]. intros H. destruct (I3 k' l H) as (n' & H'). eauto.
      * intros n' k. rewrite D, has_put. intros [H|(-> & _)]; [rewrite (I4 n' k H); apply orb_true_r|now rewrite eqb_refl].
    + cbn [fst]. assert (D : forall n' k, decorated (ds ++ [(n, f, t, m)]) n' k <-> decorated ds n' k) by (intros; rewrite decorated_snoc; tauto). split; [|split; [|split]].
      * intros n'. setoid_rewrite D. apply I1.
      * intros k n'. rewrite D. apply I2.
      * intros k l. setoid_rewrite D. apply I3.
      * intros n' k. rewrite D. apply I4.
Qed.
(** ** The command line *)
Variable order' : list str -> list str.
Hypothesis order'_perm : forall l, Permutation (order' l) l.
Definition asked (ds : list deco) (m : mainsel) (named : list str) (n : str) : Prop := In n named \/ match m with MainOff | MainGroup [] => False | MainAll => exists k, decorated ds n k | MainGroup g => decorated ds n (Some g) end.
Lemma figs_asked ds m named l : figs_to_make val (registered ds) m named = Ok l -> forall n, In n l <-> asked ds m named n.
Proof.
  destruct (registered_main ds) as (R1 & R2 & R3 & _). intros H n. unfold asked. destruct m as [| |[|a g]]; cbn [figs_to_make] in H.
  - injection H as <-. tauto.
  - injection H as <-. rewrite in_app_iff, R1. tauto.
  - injection H as <-. tauto.
  - destruct (mainget (Some (a :: g)) (mainfigs val (registered ds))) as [l0|] eqn:E; [|discriminate]. injection H as <-. rewrite in_app_iff, <- R2, E. split; [intros [H|H]; [right; eauto|now left]|]. intros [H|(l1 & El & H)]; [now right|]. injection El as <-. now left.
Qed.
Lemma update_assoc gl : NoDup (map fst gl) -> forall rv n, assoc n (update val rv gl) = match assoc n gl with Some v => Some v | None => assoc n rv end.
Proof.
  unfold update. induction gl as [|(k, x) gl I]; intros ND rv n; cbn [fold_left assoc fst snd]; [reflexivity|]. cbn [map fst] in ND. inversion ND as [|? ? Nk Ng]; subst. rewrite (I Ng). destruct (str_eqb n k) eqn:E.
  - apply eqs in E. subst n. destruct (assoc k gl) as [y|] eqn:A; [exfalso; apply Nk; apply assoc_in in A; now apply (in_map fst) in A|]. apply assoc_put_same.
  - destruct (assoc n gl); [reflexivity|]. rewrite assoc_put. now rewrite E.
Qed.
(** exactly the plots asked for are drawn, each once *)
Theorem main_draws ds m named save ov rv gl cv w w' : main val order order' cv (registered ds) m named save ov rv gl w = (w', None) -> exists l, drawn w' = drawn w ++ l /\ NoDup (map fst l) /\ forall n, In n (map fst l) <-> asked ds m named n.
Proof.
  unfold main. destruct (figs_to_make val (registered ds) m named) as [l|e|] eqn:E; [|discriminate|].
  - pose proof (figs_asked ds m named l E) as A. destruct l as [|n0 l'] eqn:El; [intros H; injection H as <-; exists []; rewrite app_nil_r; split; [reflexivity|]; split; [constructor|exact A]|]. rewrite <- El in *. clear El. set (ns := order' (nodup (list_eq_dec ascii_dec) l)). intros H.
    assert (Pn : Permutation ns (nodup (list_eq_dec ascii_dec) l)) by apply order'_perm. assert (NDn : NoDup ns) by (apply (Permutation_NoDup (Permutation_sym Pn)), NoDup_nodup).
    assert (Ln : List.length (numbers None (List.length ns)) = List.length ns) by apply seq_length.
    assert (Kn : forall p, In p ns -> has p (plotreg val (registered ds)) = true). { intros p P. destruct (has p (plotreg val (registered ds))) eqn:X; [reflexivity|]. exfalso. assert (U := unknown_plot (registered ds) (NameList ns) None (update val rv gl) (match save with None => NoSave | Some d => In_ d end) ov cv w p Ln P X). rewrite U in H. discriminate. }
    destruct (plots_made (registered ds) (NameList ns) None NDn Kn Ln _ _ _ _ _ _ H) as (l2 & P2 & D). exists l2. split; [exact D|]. assert (Pf : Permutation (map fst l2) ns). { rewrite (Permutation_map fst P2). rewrite combine_fst; [reflexivity|exact Ln]. } split; [now apply (Permutation_NoDup (Permutation_sym Pf))|]. intros n. rewrite <- A. rewrite <- (nodup_In (list_eq_dec ascii_dec) l n). split; intros X; [apply (Permutation_in _ Pn), (Permutation_in _ Pf); exact X|apply (Permutation_in _ (Permutation_sym Pf)), (Permutation_in _ (Permutation_sym Pn)); exact X].
  - destruct m as [| |[|a g]]; cbn in E; try discriminate. destruct (mainget _ _); discriminate.
Qed.
(** and their functions are given the variables: those of on_run, hidden by those of the script *)
Theorem main_passes ds m named save ov rv gl cv w w' p f t : main val order order' cv (registered ds) m named save ov rv gl w = (w', None) -> asked ds m named p -> assoc p (plotreg val (registered ds)) = Some (f, t) ->
  exists argd, (forall n, NoDup (map fst gl) -> assoc n argd = match assoc n gl with Some v => Some v | None => assoc n rv end) /\
  (forall ns g, f = Args val ns g -> exists vs, Forall2 (fun n v => assoc n argd = Some v) ns vs /\ g vs = None) /\ (forall g, f = Kw val g -> g argd = None).
Proof.
  unfold main. destruct (figs_to_make val (registered ds) m named) as [l|e|] eqn:E; [|discriminate|].
  - intros H Pa Pf. pose proof (figs_asked ds m named l E) as A. apply A in Pa. destruct l as [|n0 l'] eqn:El; [contradiction|]. rewrite <- El in *. clear El. set (ns := order' (nodup (list_eq_dec ascii_dec) l)) in *.
    assert (Pn : Permutation ns (nodup (list_eq_dec ascii_dec) l)) by apply order'_perm. assert (NDn : NoDup ns) by (apply (Permutation_NoDup (Permutation_sym Pn)), NoDup_nodup).
    assert (Ln : List.length (numbers None (List.length ns)) = List.length ns) by apply seq_length.
    assert (Kn : forall p, In p ns -> has p (plotreg val (registered ds)) = true). { intros q P. destruct (has q (plotreg val (registered ds))) eqn:X; [reflexivity|]. exfalso. assert (U := unknown_plot (registered ds) (NameList ns) None (update val rv gl) (match save with None => NoSave | Some d => In_ d end) ov cv w q Ln P X). rewrite U in H. discriminate. }
    exists (update val rv gl). split; [intros n ND; now apply update_assoc|]. apply (plots_called (registered ds) (NameList ns) None NDn Kn Ln _ _ _ _ _ _ p f t H); [|exact Pf]. cbn [select]. apply (Permutation_in _ (Permutation_sym Pn)). now apply nodup_In.
  - destruct m as [| |[|a g]]; cbn in E; try discriminate. destruct (mainget _ _); discriminate.
Qed.
(** without the option nothing is written *)
Theorem main_saves_nothing ds m named ov rv gl cv w w' : main val order order' cv (registered ds) m named None ov rv gl w = (w', None) -> files w' = files w.
Proof.
  unfold main. destruct (figs_to_make val (registered ds) m named) as [l|e|] eqn:E; [|discriminate|].
  - intros H. destruct l as [|n0 l'] eqn:El; [now injection H as <-|]. rewrite <- El in *. clear El. set (ns := order' (nodup (list_eq_dec ascii_dec) l)) in *.
    assert (Pn : Permutation ns (nodup (list_eq_dec ascii_dec) l)) by apply order'_perm. assert (NDn : NoDup ns) by (apply (Permutation_NoDup (Permutation_sym Pn)), NoDup_nodup).
    assert (Ln : List.length (numbers None (List.length ns)) = List.length ns) by apply seq_length.
    assert (Kn : forall p, In p ns -> has p (plotreg val (registered ds)) = true). { intros q P. destruct (has q (plotreg val (registered ds))) eqn:X; [reflexivity|]. exfalso. assert (U := unknown_plot (registered ds) (NameList ns) None (update val rv gl) NoSave ov cv w q Ln P X). rewrite U in H. discriminate. }
    pose proof (nothing_saved (registered ds) (NameList ns) None NDn Kn Ln cv (update val rv gl) ov w) as F. rewrite H in F. exact F.
  - destruct m as [| |[|a g]]; cbn in E; try discriminate. destruct (mainget _ _); discriminate.
Qed.
(** an unknown plot or group: nothing happens *)
Theorem main_unknown ds m named save ov rv gl cv w : (exists p, In p named /\ (forall f t m', In (p, f, t, m') ds -> ~ valid_type t)) \/ (exists a g, m = MainGroup (a :: g) /\ forall n, ~ decorated ds n (Some (a :: g))) -> main val order order' cv (registered ds) m named save ov rv gl w = (w, Some KeyError).
Proof.
  intros H. unfold main. destruct (figs_to_make val (registered ds) m named) as [l|e|] eqn:E.
  - destruct H as [(p & P & N)|(a & g & -> & N)].
    + pose proof (figs_asked ds m named l E p) as A. assert (Pl : In p l) by (apply A; now left). destruct l as [|n0 l'] eqn:El; [contradiction|]. rewrite <- El in *. clear El. set (ns := order' (nodup (list_eq_dec ascii_dec) l)). apply (unknown_plot (registered ds) (NameList ns) None) with (x := p).
      * apply seq_length.
      * apply (Permutation_in _ (Permutation_sym (order'_perm _))). now apply nodup_In.
      * clear - N. assert (G : forall l st, (forall f t m, In (p, f, t, m) l -> ~ valid_type t) -> has p (plotreg val st) = false -> has p (plotreg val (fold_left reg_step l st)) = false). { induction l as [|(((q, f), t), m) l I]; intros st Nl Hs; cbn [fold_left]; [exact Hs|]. apply I; [intros f' t' m' X; apply (Nl f' t' m'); now right|]. unfold reg_step, plotfunc. destruct (type_cases t) as [(-> & V)|(-> & _)]; [|exact Hs]. cbn [fst plotreg]. rewrite has_put, Hs, orb_false_r. apply eqb_neq. intros ->. apply (Nl f t m); [now left|exact V]. } apply G; [exact N|reflexivity].
    + exfalso. cbn [figs_to_make] in E. destruct (registered_main ds) as (_ & _ & R3 & _). destruct (mainget (Some (a :: g)) (mainfigs val (registered ds))) as [l0|] eqn:M; [|discriminate]. destruct (R3 _ _ M) as (n & D). now apply (N n).
  - destruct m as [| |[|a g]]; cbn in E; try discriminate. destruct (mainget _ _); [discriminate|]. congruence.
  - destruct m as [| |[|a g]]; cbn in E; try discriminate. destruct (mainget _ _); discriminate.
Qed.
(** ** Arguments *)
Theorem arguments_by_name names f argd vs : Forall2 (fun n v => assoc n argd = Some v) names vs -> call val (Args val names f) argd = f vs.
Proof. intros F. cbn [call]. assert (E : fetch val names argd = Ok vs); [|now rewrite E]. induction F as [|n v names vs H F I]; [reflexivity|]. cbn [fetch]. now rewrite H, I. Qed.
Theorem arguments_missing names f argd n : In n names -> assoc n argd = None -> call val (Args val names f) argd = Some KeyError.
Proof. intros H K. cbn [call]. assert (E : fetch val names argd = Raise KeyError); [|now rewrite E]. induction names as [|m names I]; [contradiction|]. cbn [fetch]. destruct H as [->|H]; [now rewrite K|]. rewrite (I H). now destruct (assoc m argd). Qed.
(** a variable of on_run reaches the plots, if the script has no global of that name *)
Theorem variables_reach rv gl n v f : NoDup (map fst gl) -> assoc n rv = Some v -> assoc n gl = None -> call val (Args val [n] f) (update val rv gl) = f [v].
Proof. intros ND R G. apply arguments_by_name. constructor; [|constructor]. now rewrite update_assoc, G. Qed.
Theorem variables_hidden_refuted rv gl n v v' f : NoDup (map fst gl) -> assoc n rv = Some v -> assoc n gl = Some v' -> call val (Args val [n] f) (update val rv gl) = f [v'].
Proof. intros ND R G. apply arguments_by_name. constructor; [|constructor]. now rewrite update_assoc, G. Qed.
End Plots.
(** ** The extensions *)
Lemma strip_visible e : Forall (fun a => is_space a = false) e -> strip e = e.
Proof.
  intros F. unfold strip, lstrip, rstrip. assert (S : forall s, Forall (fun a => is_space a = false) s -> snd (span is_space s) = s) by (intros [|a s] H; [reflexivity|]; inversion H as [|? ? Ha _]; subst; cbn [span]; now rewrite Ha). rewrite (S e F). rewrite S; [apply rev_involutive|]. apply Forall_rev. exact F.
Qed.
Definition ext_word (e : str) : Prop := e <> [] /\ ~ In ","%char e /\ Forall (fun a => is_space a = false) e.
Lemma split_join (c : ascii) es : es <> [] -> Forall (fun e => ~ In c e) es -> split_on c (join [c] es) = es.
Proof.
  induction es as [|e es I]; intros N F; [congruence|]. inversion F as [|? ? Fe Fr]; subst. destruct es as [|e' es].
  - cbn [join]. clear - Fe. induction e as [|a e I]; [reflexivity|]. cbn [split_on]. destruct (a =a c) eqn:E; [apply eqa in E; exfalso; apply Fe; now left|]. rewrite I; [reflexivity|]. intros X. apply Fe. now right.
  - change (join [c] (e :: e' :: es)) with (e ++ c :: join [c] (e' :: es)). assert (S : forall r, split_on c (e ++ c :: r) = e :: split_on c r). { clear - Fe. induction e as [|a e I]; intros r; cbn [app split_on]; [rewrite (proj2 (eqa c c) eq_refl); reflexivity|]. destruct (a =a c) eqn:E; [apply eqa in E; exfalso; apply Fe; now left|]. rewrite I; [reflexivity|]. intros X. apply Fe. now right. } rewrite S, I; [reflexivity|discriminate|exact Fr].
Qed.
Lemma exts_text es : es <> [] -> Forall ext_word es -> exists a r, join [","%char] es = a :: r /\ strip (join [","%char] es) = join [","%char] es /\ split_on ","%char (join [","%char] es) = es.
Proof.
  intros N F. assert (V : Forall (fun a => is_space a = false) (join [","%char] es)). { clear N. induction F as [|e es (_ & _ & V) F I]; [constructor|]. destruct es as [|e' es]; [exact V|]. change (join [","%char] (e :: e' :: es)) with (e ++ [","%char] ++ join [","%char] (e' :: es)). apply Forall_app. split; [exact V|]. apply Forall_app. split; [constructor; [reflexivity|constructor]|exact I]. }
  destruct es as [|e es]; [congruence|]. inversion F as [|? ? (Ne & _) _]; subst. destruct e as [|a e]; [congruence|]. assert (E : exists r, join [","%char] ((a :: e) :: es) = a :: r) by (destruct es; eexists; reflexivity). destruct E as (r & E). exists a, r. split; [exact E|]. split; [now apply strip_visible|]. apply split_join; [discriminate|]. apply Forall_impl with (2 := F). intros x X. apply X.
Qed.
Theorem extensions_default : extensions (L "mpl") = Some ([L "eps"; L "pdf"], false) /\ extensions (L "mayavi") = Some ([L "png"], false) /\ extensions (L "mpltoeps") = Some ([L "png"], true).
Proof. repeat split; vm_compute; reflexivity. Qed.
Theorem extensions_mpl es : es <> [] -> Forall ext_word es -> es <> [L "toeps"] -> extensions (L "mpl" ++ join [","%char] es) = Some (es, false).
Proof.
  intros N F T. destruct (exts_text es N F) as (a & r & E & S & P). unfold extensions. destruct (str_eqb _ _) eqn:X.
  - exfalso. apply eqs in X. change (L "mpltoeps") with (L "mpl" ++ L "toeps") in X. apply app_inv_head in X. rewrite X in P. apply T. rewrite <- P. vm_compute. reflexivity.
  - rewrite drop_app, S. rewrite E in *. now rewrite P.
Qed.
Lemma mem_spec x l : mem x l = true <-> In x l.
Proof. unfold mem. rewrite existsb_exists. split; [intros (y & Y & E); apply eqs in E; now subst y|]. intros H. exists x. split; [exact H|now apply eqs]. Qed.
Theorem extensions_mayavi es : es <> [] -> Forall ext_word es -> ~ In (L "eps") es -> extensions (L "mayavi" ++ join [","%char] es) = Some (es, false).
Proof.
  intros N F T. destruct (exts_text es N F) as (a & r & E & S & P). unfold extensions. rewrite drop_app, S. rewrite E in *. rewrite P. destruct (mem (L "eps") es) eqn:M; [apply mem_spec in M; contradiction|]. reflexivity.
Qed.
Lemma remove_first_in x l : forall y, y <> x -> In y (remove_first x l) <-> In y l.
Proof. induction l as [|z l I]; intros y N; [tauto|]. cbn [remove_first]. destruct (str_eqb x z) eqn:E; [apply eqs in E; subst z; cbn [In]; intuition congruence|]. cbn [In]. rewrite I by exact N. tauto. Qed.
(** eps of mayavi is made from png *)
Theorem extensions_convert es : Forall ext_word es -> In (L "eps") es -> exists l, extensions (L "mayavi" ++ join [","%char] es) = Some (l, true) /\ In (L "png") l /\ forall e, e <> L "png" -> e <> L "eps" -> In e l <-> In e es.
Proof.
  intros F T. assert (N : es <> []) by (intros ->; contradiction). destruct (exts_text es N F) as (a & r & E & S & P). unfold extensions. rewrite drop_app, S. rewrite E in *. rewrite P. rewrite (proj2 (mem_spec _ _) T). set (l := remove_first (L "eps") es). change (str_eqb (L "mayavi" ++ a :: r) (L "mpltoeps")) with false. cbv iota. change (drop (L "mpl") (L "mayavi" ++ a :: r)) with (@None str). cbv iota. destruct (mem (L "png") l) eqn:M.
  - exists l. split; [reflexivity|]. split; [now apply mem_spec|]. intros e N1 N2. now apply remove_first_in.
  - exists (l ++ [L "png"]). split; [reflexivity|]. split; [apply in_app_iff; right; now left|]. intros e N1 N2. rewrite in_app_iff. unfold l. rewrite (remove_first_in _ _ e N2). cbn [In]. intuition congruence.
Qed.
(** ** What fails *)
Definition plain_fun : pfun nat := Args nat [] (fun _ => None).
Definition keep {A} (l : list A) : list A := l.
Lemma keep_perm {A} (l : list A) : Permutation (keep l) l. Proof. apply Permutation_refl. Qed.
(** a pattern need not fit the whole name *)
Theorem pattern_end_refuted : exists st : plots nat, In (L "fig_12") (select nat st (Names (L "fig*1"))) /\ ~ Glob (L "fig*1") (L "fig_12").
Proof.
  exists (PR nat [(L "fig_12", (plain_fun, L "mpl"))] []). split; [vm_compute; now left|]. intros G.
  assert (X : forall p s, Glob p s -> forall q c, p = q ++ [c] -> c <> "*"%char -> exists u, s = u ++ [c]). { clear. intros p s G. induction G as [|c p s N G I|p w s G I]; intros q d E N'; [destruct q; discriminate| |].
    - destruct q as [|c' q]; [cbn in E; injection E as -> ->; inversion G; subst; now exists []|]. cbn in E. injection E as -> ->. destruct (I q d eq_refl N') as (u & ->). now exists (c' :: u).
    - destruct q as [|c' q]; [cbn in E; injection E as <- _; congruence|]. cbn in E. injection E as <- ->. destruct (I q d eq_refl N') as (u & ->). exists (w ++ u). now rewrite app_assoc. }
  destruct (X _ _ G (L "fig*") "1"%char eq_refl ltac:(discriminate)) as (u & E). apply (f_equal (@rev ascii)) in E. rewrite rev_app_distr in E. vm_compute in E. discriminate.
Qed.
(** with overwrite off the converted file is replaced nevertheless *)
Theorem convert_overwrites_refuted : exists (st : plots nat) w w', make_plots nat keep true st All None [] Here false w = (w', None) /\ assoc (L "./p.eps") (files w) = Some (Before 0) /\ assoc (L "./p.eps") (files w') = Some (Converted (L "p")).
Proof. exists (PR nat [(L "p", (plain_fun, L "mpltoeps"))] []), (W false [(L "./p.eps", Before 0)] []). eexists. split; [vm_compute; reflexivity|]. split; vm_compute; reflexivity. Qed.
(** eps is asked for and not made, if another extension follows png *)
Theorem convert_lost_refuted : exists (st : plots nat) w', make_plots nat keep true st All None [] Here true (W false [] []) = (w', None) /\ assoc (L "p") (plotreg nat st) = Some (plain_fun, L "mayavipng,eps,jpg") /\ has (L "./p.png") (files w') = true /\ has (L "./p.eps") (files w') = false.
Proof. exists (PR nat [(L "p", (plain_fun, L "mayavipng,eps,jpg"))] []). eexists. split; [vm_compute; reflexivity|]. repeat split; vm_compute; reflexivity. Qed.
(** an empty directory is the root *)
Theorem empty_directory_refuted : save_dir (In_ []) = Some (L "/") /\ exists (st : plots nat) w', make_plots nat keep true st All None [] (In_ []) true (W false [] []) = (w', None) /\ has (L "/p.pdf") (files w') = true.
Proof. split; [reflexivity|]. exists (PR nat [(L "p", (plain_fun, L "mpl"))] []). eexists. split; vm_compute; reflexivity. Qed.
(** a type that is accepted when the function is decorated cannot be saved *)
Theorem type_refuted : exists (st : plots nat) w', plotfunc nat (PR nat [] []) (L "p") plain_fun (L "my mpl") NotMain = (st, Ok tt) /\ make_plots nat keep true st All None [] Here true (W false [] []) = (w', Some ValueError).
Proof. eexists _, _. split; vm_compute; reflexivity. Qed.
(** the same plot twice is drawn once, with the last number *)
Theorem twice_refuted : exists (st : plots nat) w', make_plots nat keep true st (Names (L "p,p")) (Some [3; 4]) [] NoSave true (W false [] []) = (w', None) /\ drawn w' = [(L "p", 4)].
Proof. exists (PR nat [(L "p", (plain_fun, L "mpl"))] []). eexists. split; vm_compute; reflexivity. Qed.
(** a script with three plots, one of which fails *)
Definition script1 : list (str * pfun nat * str * mainarg) := [(L "a", plain_fun, L "mpl", Main); (L "b", Args nat [L "x"] (fun l => if Nat.eqb (hd 0 l) 5 then None else Some ValueError), L "mplpng", Group (L "paper1")); (L "c", Kw nat (fun d => None), L "mplpng,svg", NotMain)].
Example script1_runs : exists w', main nat keep keep true (registered nat script1) MainAll [L "c"] (Some (L "out")) false [(L "x", 5)] [(L "y", 1)] (W true [(L "out/a.pdf", Before 7)] []) = (w', None) /\ drawn w' = [(L "a", 1); (L "b", 2); (L "c", 3)] /\ inter w' = true /\ assoc (L "out/a.pdf") (files w') = Some (Before 7) /\ assoc (L "out/a.eps") (files w') = Some (Fig (L "a")) /\ assoc (L "out/c.svg") (files w') = Some (Fig (L "c")).
Proof. eexists. split; [vm_compute; reflexivity|]. repeat split; vm_compute; reflexivity. Qed.
Example script1_fails : exists w', main nat keep keep true (registered nat script1) MainAll [L "c"] (Some (L "out")) false [(L "x", 5)] [(L "x", 1)] (W true [] []) = (w', Some ValueError) /\ drawn w' = [(L "a", 1); (L "b", 2)] /\ inter w' = true /\ has (L "out/a.pdf") (files w') = true /\ has (L "out/b.png") (files w') = false.
Proof. eexists. split; [vm_compute; reflexivity|]. repeat split; vm_compute; reflexivity. Qed.
Example script1_known : NoDup (select nat (registered nat script1) All) /\ (forall p, In p (select nat (registered nat script1) All) -> has p (plotreg nat (registered nat script1)) = true) /\ (forall q, In q (select nat (registered nat script1) All) -> ~ In "."%char q).
Proof.
  split; [|split].
  - vm_compute. repeat constructor; cbn; intros X; repeat (destruct X as [X|X]; [discriminate|]); exact X.
  - intros p P. vm_compute in P. destruct P as [<-|[<-|[<-|[]]]]; vm_compute; reflexivity.
  - intros q Q. vm_compute in Q. destruct Q as [<-|[<-|[<-|[]]]]; intros X; repeat (destruct X as [X|X]; [discriminate|]); exact X.
Qed.
