(** * CmdDict: bands and colors given to a CMDAnalyzer (C67) *)
From Coq Require Import List Bool ZArith Reals Lra Lia.
From Verif Require Import PyBase CmdModel.
Import ListNotations.
Open Scope R_scope.

(** ** specification: what an input says about a band *)
Definition given (b : name) (items : list (band_in * row)) : Prop := exists r, In (BName b, r) items \/ In (BObj b, r) items.
Definition in_color (b : name) (items : list (band_in * row)) : Prop := exists b1 b2 r, In (BColor [b1; b2], r) items /\ (b = b1 \/ b = b2).
(** when the color after [pre] is read, the magnitudes of [b] are known already *)
Definition determined (b : name) (items pre : list (band_in * row)) : Prop := given b items \/ in_color b pre.

Lemma lookup_store {A} b c (v : A) d : lookup b (store c v d) = if Nat.eqb c b then Some v else lookup b d.
Proof.
  induction d as [|[k w] d IH]; simpl; [reflexivity|]. destruct (Nat.eqb_spec k c) as [->|N]; simpl.
  - destruct (Nat.eqb_spec c b); reflexivity.
  - destruct (Nat.eqb_spec k b) as [->|M]; [|exact IH]. destruct (Nat.eqb_spec c b); [congruence|reflexivity].
Qed.
Lemma combine_split {A B} (l : list (A * B)) : combine (map fst l) (map snd l) = l.
Proof. induction l as [|[a b] l IH]; simpl; [reflexivity|now rewrite IH]. Qed.
Definition direct (e : band_in) : option name := match e with BName b | BObj b => Some b | BColor _ => None end.
Lemma direct_store d e r : direct_step d (e, r) = match direct e with Some b => store b (r, true) d | None => d end.
Proof. destruct e; reflexivity. Qed.
Lemma directs_none items : forall d b, (forall r, ~ In (BName b, r) items /\ ~ In (BObj b, r) items) -> lookup b (fold_left direct_step items d) = lookup b d.
Proof.
  induction items as [|[e r] items IH]; intros d b N; [reflexivity|]. cbn [fold_left]. rewrite IH.
  - rewrite direct_store. destruct (direct e) as [c|] eqn:E; [|reflexivity]. rewrite lookup_store. destruct (Nat.eqb_spec c b) as [->|]; [|reflexivity]. destruct (N r) as [N1 N2]. destruct e; inversion E; subst; exfalso; [apply N1|apply N2]; now left.
  - intros x. destruct (N x). split; intros H'; [apply H|apply H0]; now right.
Qed.
Lemma directs_last items d e b r post pre : items = pre ++ (e, r) :: post -> direct e = Some b -> (forall r, ~ In (BName b, r) post /\ ~ In (BObj b, r) post) -> lookup b (fold_left direct_step items d) = Some (r, true).
Proof. intros -> E N. rewrite fold_left_app. cbn [fold_left]. rewrite directs_none by trivial. rewrite direct_store, E, lookup_store, Nat.eqb_refl. reflexivity. Qed.
Lemma given_dec b items : given b items \/ forall r, ~ In (BName b, r) items /\ ~ In (BObj b, r) items.
Proof.
  induction items as [|[e r] items IH]. { right. intros r. split; intros []. }
  destruct IH as [[x X]|N]. { left. exists x. destruct X; [left|right]; now right. }
  destruct (direct e) as [c|] eqn:E; [destruct (Nat.eq_dec c b) as [->|M]|].
  - left. exists r. destruct e; inversion E; subst; [left|right]; now left.
  - right. intros x. destruct (N x). split; (intros [Q|Q]; [inversion Q; subst; simpl in E; congruence|contradiction]).
  - right. intros x. destruct (N x). split; (intros [Q|Q]; [inversion Q; subst; simpl in E; congruence|contradiction]).
Qed.
Lemma directs_mask items : forall d b r m, lookup b (fold_left direct_step items d) = Some (r, m) -> lookup b d = Some (r, m) \/ m = true /\ (In (BName b, r) items \/ In (BObj b, r) items).
Proof.
  induction items as [|[e x] items IH]; intros d b r m; cbn [fold_left]; [now left|]. intros H. apply IH in H. destruct H as [H|[-> H]]; [|right; split; [reflexivity|]; destruct H; [left|right]; now right].
  rewrite direct_store in H. destruct (direct e) as [c|] eqn:E; [|now left]. rewrite lookup_store in H. destruct (Nat.eqb_spec c b) as [->|]; [|now left]. inversion H; subst. right. split; [reflexivity|]. destruct e; inversion E; subst; [left|right]; now left.
Qed.
Lemma directs_in items : forall d b, given b items -> exists r, lookup b (fold_left direct_step items d) = Some (r, true).
Proof.
  induction items as [|[e x] items IH]; intros d b; cbn [fold_left]. { intros [r [[]|[]]]. }
  intros G. destruct (given_dec b items) as [G'|N]; [now apply IH|]. rewrite directs_none by trivial. rewrite direct_store. destruct G as [r G]. exists x.
  destruct (N r) as [N1 N2]. assert (direct e = Some b) as ->. { destruct G as [[G|G]|[G|G]]; try contradiction; now inversion G. } now rewrite lookup_store, Nat.eqb_refl.
Qed.

(** a color never changes what is known *)
Section Known.
Variable known : name -> bool.
Lemma color_keeps d e d' : color_step known d e = Ok d' -> forall b v, lookup b d = Some v -> lookup b d' = Some v.
Proof.
  destruct e as [[b|p|b] r]; cbn [color_step]; try (intros H; inversion H; subst; now intros).
  destruct p as [|b1 [|b2 [|]]]; try discriminate. destruct (lookup b1 d) as [[r1 m1]|] eqn:E1; destruct (lookup b2 d) as [[r2 m2]|] eqn:E2.
  - intros H; inversion H; subst; now intros.
  - destruct (known b2); [|discriminate]. intros H; inversion H; subst. intros b v L. rewrite lookup_store. destruct (Nat.eqb_spec b2 b); [congruence|trivial].
  - destruct (known b1); [|discriminate]. intros H; inversion H; subst. intros b v L. rewrite lookup_store. destruct (Nat.eqb_spec b1 b); [congruence|trivial].
  - destruct (known b1 && known b2); [|discriminate]. intros H; inversion H; subst. intros b v L. rewrite !lookup_store. destruct (Nat.eqb_spec b2 b); [congruence|]. destruct (Nat.eqb_spec b1 b); [congruence|trivial].
Qed.
Lemma colors_keep items : forall d d', colors known d items = Ok d' -> forall b v, lookup b d = Some v -> lookup b d' = Some v.
Proof.
  induction items as [|e items IH]; intros d d'; cbn [colors]. { intros H; inversion H; subst; now intros. }
  destruct (color_step known d e) as [d1| |] eqn:E; try discriminate. intros H b v L. apply (IH d1); trivial. now apply (color_keeps d e).
Qed.
Lemma colors_app pre : forall d post d', colors known d (pre ++ post) = Ok d' -> exists d1, colors known d pre = Ok d1 /\ colors known d1 post = Ok d'.
Proof.
  induction pre as [|e pre IH]; intros d post d'; cbn [app colors]. { intros H. now exists d. }
  destruct (color_step known d e) as [d1| |]; try discriminate. apply IH.
Qed.
Lemma color_new d e d' b : color_step known d e = Ok d' -> lookup b d = None -> lookup b d' <> None -> exists b1 b2 r, e = (BColor [b1; b2], r) /\ (b = b1 \/ b = b2).
Proof.
  destruct e as [[c|p|c] r]; cbn [color_step]; try (intros H; inversion H; subst; congruence).
  destruct p as [|b1 [|b2 [|]]]; try discriminate. intros H L N. exists b1, b2, r. split; [reflexivity|]. destruct (Nat.eq_dec b b1) as [|N1]; [now left|]. destruct (Nat.eq_dec b b2) as [|N2]; [now right|]. exfalso. apply N. clear N.
  destruct (lookup b1 d) as [[r1 m1]|] eqn:E1; destruct (lookup b2 d) as [[r2 m2]|] eqn:E2.
  - inversion H; subst; trivial.
  - destruct (known b2); [|discriminate]. inversion H; subst. rewrite lookup_store. destruct (Nat.eqb_spec b2 b); [congruence|trivial].
  - destruct (known b1); [|discriminate]. inversion H; subst. rewrite lookup_store. destruct (Nat.eqb_spec b1 b); [congruence|trivial].
  - destruct (known b1 && known b2); [|discriminate]. inversion H; subst. rewrite !lookup_store. destruct (Nat.eqb_spec b2 b); [congruence|]. destruct (Nat.eqb_spec b1 b); [congruence|trivial].
Qed.
Lemma color_has d b1 b2 r d' : color_step known d (BColor [b1; b2], r) = Ok d' -> lookup b1 d' <> None /\ lookup b2 d' <> None.
Proof.
  cbn [color_step]. destruct (lookup b1 d) as [[r1 m1]|] eqn:E1; destruct (lookup b2 d) as [[r2 m2]|] eqn:E2.
  - intros H; inversion H; subst. split; congruence.
  - destruct (known b2); [|discriminate]. intros H; inversion H; subst. rewrite !lookup_store, Nat.eqb_refl. destruct (Nat.eqb b2 b1); split; congruence.
  - destruct (known b1); [|discriminate]. intros H; inversion H; subst. rewrite !lookup_store, Nat.eqb_refl. destruct (Nat.eqb b1 b2); split; congruence.
  - destruct (known b1 && known b2); [|discriminate]. intros H; inversion H; subst. rewrite !lookup_store, !Nat.eqb_refl. destruct (Nat.eqb b2 b1); split; congruence.
Qed.
(** the dictionary after a prefix: exactly the determined bands *)
Lemma colors_keys pre : forall d d1, colors known d pre = Ok d1 -> forall b, lookup b d1 <> None <-> lookup b d <> None \/ in_color b pre.
Proof.
  induction pre as [|e pre IH]; intros d d1; cbn [colors].
  - intros H b. inversion H; subst. split; [now left|]. intros [|(b1 & b2 & r & [] & _)]; trivial.
  - destruct (color_step known d e) as [d0| |] eqn:E; try discriminate. intros H b. rewrite (IH _ _ H b). split.
    + intros [L|(b1 & b2 & r & I & B)]; [|right; exists b1, b2, r; split; [now right|trivial]]. destruct (lookup b d) eqn:L0; [left; congruence|right]. destruct (color_new _ _ _ _ E L0 L) as (b1 & b2 & r & -> & B). exists b1, b2, r. split; [now left|trivial].
    + intros [L|(b1 & b2 & r & [I|I] & B)].
      * left. destruct (lookup b d) as [v|] eqn:L0; [|congruence]. rewrite (color_keeps _ _ _ E _ _ L0). congruence.
      * subst e. left. destruct (color_has _ _ _ _ _ E) as [A1 A2]. destruct B; subst; trivial.
      * right. now exists b1, b2, r.
Qed.
End Known.

Lemma to_dicts_split known items d : to_dicts known (map fst items) (map snd items) = Ok d -> colors known (fold_left direct_step items []) items = Ok d.
Proof. unfold to_dicts. rewrite !map_length, Nat.eqb_refl, combine_split. destruct (check_all known (map fst items)); try discriminate. trivial. Qed.
Lemma prefix_known known items d pre e post : to_dicts known (map fst items) (map snd items) = Ok d -> items = pre ++ e :: post ->
  exists d1 d2, (forall b, lookup b d1 <> None <-> determined b items pre) /\ color_step known d1 e = Ok d2 /\ (forall b v, lookup b d2 = Some v -> lookup b d = Some v) /\ colors known (fold_left direct_step items []) pre = Ok d1 /\ colors known d2 post = Ok d.
Proof.
  intros H E. apply to_dicts_split in H. rewrite E in H at 2. destruct (colors_app _ _ _ _ _ H) as (d1 & H1 & H2). cbn [colors] in H2. destruct (color_step known d1 e) as [d2| |] eqn:S; try discriminate.
  exists d1, d2. split; [|split; [exact S|split; [now apply colors_keep with (items := post) (known := known)|split; trivial]]]. intros b. rewrite (colors_keys _ _ _ _ H1). unfold determined. split; (intros [G|G]; [left|now right]).
  - destruct (given_dec b items) as [|N]; trivial. rewrite directs_none in G by trivial. now contradict G.
  - destruct (directs_in items [] b G) as [r ->]. congruence.
Qed.

(** a band given directly keeps its row (the last one given) *)
Theorem C67_direct : forall known items d pre e b r post, to_dicts known (map fst items) (map snd items) = Ok d ->
  items = pre ++ (e, r) :: post -> e = BName b \/ e = BObj b -> ~ given b post -> lookup b d = Some (r, true).
Proof.
  intros known items d pre e b r post H E D N. apply to_dicts_split in H. apply (colors_keep _ _ _ _ H). apply (directs_last items [] e b r post pre E); [destruct D; subst; reflexivity|].
  intros x. split; intros I; apply N; exists x; [now left|now right].
Qed.
Lemma rsub_rsub a b n : length a = n -> length b = n -> rsub a (rsub a b) = b.
Proof. revert b n. induction a as [|x a IH]; intros [|y b] n A B; simpl in *; subst; try discriminate; [reflexivity|]. unfold rsub, rmap2 in *. cbn [combine map fst snd]. f_equal; [ring|]. apply (IH b (length a)); congruence. Qed.
Lemma radd_rsub a b n : length a = n -> length b = n -> rsub (radd a b) b = a.
Proof. revert b n. induction a as [|x a IH]; intros [|y b] n A B; simpl in *; subst; try discriminate; [reflexivity|]. unfold rsub, radd, rmap2 in *. cbn [combine map fst snd]. f_equal; [ring|]. apply (IH b (length a)); congruence. Qed.
Lemma zero_neg a : rsub (map (fun _ => 0) a) (map (fun x => -1 * x) a) = a.
Proof. induction a as [|x a IH]; [reflexivity|]. unfold rsub, rmap2 in *. cbn [combine map fst snd]. f_equal; [ring|exact IH]. Qed.
Lemma rmap2_length f a b n : length a = n -> length b = n -> length (rmap2 f a b) = n.
Proof. intros A B. unfold rmap2. rewrite map_length, combine_length. lia. Qed.
(** all rows of the dictionaries have the common length *)
Definition rect (n : nat) (d : dict) : Prop := forall b r m, lookup b d = Some (r, m) -> length r = n.
Lemma rect_store n d b r m : rect n d -> length r = n -> rect n (store b (r, m) d).
Proof. intros D L c x y. rewrite lookup_store. destruct (Nat.eqb b c); [intros H; inversion H; subst; trivial|apply D]. Qed.
Lemma rect_directs n items : Forall (fun e => length (snd e) = n) items -> forall d, rect n d -> rect n (fold_left direct_step items d).
Proof. induction 1 as [|[e r] items L F IH]; intros d D; [exact D|]. cbn [fold_left]. apply IH. rewrite direct_store. destruct (direct e); [now apply rect_store|exact D]. Qed.
Lemma rect_color known n d e d' : length (snd e) = n -> rect n d -> color_step known d e = Ok d' -> rect n d'.
Proof.
  intros L D. destruct e as [[b|p|b] r]; cbn [color_step snd] in *; [now (intros H; inversion H; subst)| |now (intros H; inversion H; subst)].
  destruct p as [|b1 [|b2 [|]]]; try discriminate. destruct (lookup b1 d) as [[r1 m1]|] eqn:E1; destruct (lookup b2 d) as [[r2 m2]|] eqn:E2.
  - now intros H; inversion H; subst.
  - destruct (known b2); [|discriminate]. intros H; inversion H; subst. apply rect_store; trivial. apply rmap2_length; [now apply (D b1 _ m1)|reflexivity].
  - destruct (known b1); [|discriminate]. intros H; inversion H; subst. apply rect_store; trivial. apply rmap2_length; [reflexivity|now apply (D b2 _ m2)].
  - destruct (known b1 && known b2); [|discriminate]. intros H; inversion H; subst. apply rect_store; [apply rect_store|]; rewrite ?map_length; trivial.
Qed.
Lemma rect_colors known n items : Forall (fun e => length (snd e) = n) items -> forall d d', rect n d -> colors known d items = Ok d' -> rect n d'.
Proof. induction 1 as [|e items L F IH]; intros d d' D; cbn [colors]; [now intros H; inversion H; subst|]. destruct (color_step known d e) as [d1| |] eqn:E; try discriminate. apply IH. now apply (rect_color known n d e). Qed.
Lemma rect_dicts known n items d : Forall (fun e => length (snd e) = n) items -> to_dicts known (map fst items) (map snd items) = Ok d -> rect n d.
Proof. intros F H. apply to_dicts_split in H. apply (rect_colors known n items F _ _) in H; trivial. apply rect_directs; trivial. intros b r m. discriminate. Qed.

(** the two bands of a color have magnitudes, whose difference is the color unless both were known before *)
Theorem C67_color : forall known n items d pre b1 b2 r post, Forall (fun e => length (snd e) = n) items -> to_dicts known (map fst items) (map snd items) = Ok d ->
  items = pre ++ (BColor [b1; b2], r) :: post -> b1 <> b2 -> exists r1 m1 r2 m2, lookup b1 d = Some (r1, m1) /\ lookup b2 d = Some (r2, m2) /\
  (~ (determined b1 items pre /\ determined b2 items pre) -> rsub r1 r2 = r).
Proof.
  intros known n items d pre b1 b2 r post F H E N. destruct (prefix_known _ _ _ _ _ _ H E) as (d1 & d2 & K & S & L & C1 & _).
  assert (RD : rect n d1). { refine (rect_colors known n pre _ _ _ _ C1); [|apply rect_directs; [trivial|intros b x m; discriminate]]. rewrite E in F. now apply Forall_app in F. }
  assert (LR : length r = n). { rewrite E in F. apply Forall_app in F. destruct F as [_ F]. now inversion F. }
  cbn [color_step] in S. destruct (lookup b1 d1) as [[r1 m1]|] eqn:E1; destruct (lookup b2 d1) as [[r2 m2]|] eqn:E2.
  - inversion S; subst d2. exists r1, m1, r2, m2. split; [now apply L|]. split; [now apply L|]. intros Q. exfalso. apply Q. split; apply K; congruence.
  - destruct (known b2); [|discriminate]. inversion S; subst d2. exists r1, m1, (rsub r1 r), true. split; [apply L; rewrite lookup_store; destruct (Nat.eqb_spec b2 b1); congruence|]. split; [apply L; now rewrite lookup_store, Nat.eqb_refl|]. intros _. apply rsub_rsub with n; trivial. now apply (RD b1 _ m1).
  - destruct (known b1); [|discriminate]. inversion S; subst d2. exists (radd r r2), true, r2, m2. split; [apply L; now rewrite lookup_store, Nat.eqb_refl|]. split; [apply L; rewrite lookup_store; destruct (Nat.eqb_spec b1 b2); congruence|]. intros _. apply radd_rsub with n; trivial. now apply (RD b2 _ m2).
  - destruct (known b1 && known b2); [|discriminate]. inversion S; subst d2. eexists _, _, _, _. split; [apply L; rewrite !lookup_store, Nat.eqb_refl; destruct (Nat.eqb_spec b2 b1); [congruence|reflexivity]|]. split; [apply L; rewrite !lookup_store, Nat.eqb_refl; reflexivity|]. intros _. apply zero_neg.
Qed.
(** the masked bands are exactly those whose magnitudes were assumed to be zero: the first band of a color of which neither band was known *)
Theorem C67_mask : forall known items d b r, (forall c x, ~ In (BColor [c; c], x) items) -> to_dicts known (map fst items) (map snd items) = Ok d ->
  (lookup b d = Some (r, false) <-> exists pre b2 r0 post, items = pre ++ (BColor [b; b2], r0) :: post /\ ~ determined b items pre /\ ~ determined b2 items pre /\ r = map (fun _ => 0) r0).
Proof.
  intros known items d b r NS H. split.
  - intros L. pose proof (to_dicts_split _ _ _ H) as C.
    assert (G : forall post pre d1, items = pre ++ post -> colors known (fold_left direct_step items []) pre = Ok d1 -> colors known d1 post = Ok d -> lookup b d1 <> Some (r, false) ->
      exists pre b2 r0 post, items = pre ++ (BColor [b; b2], r0) :: post /\ ~ determined b items pre /\ ~ determined b2 items pre /\ r = map (fun _ => 0) r0).
    { induction post as [|e post IH]; intros pre d1 E C1 C2 N. { cbn [colors] in C2. inversion C2; subst d1. contradiction. }
      cbn [colors] in C2. destruct (color_step known d1 e) as [d2| |] eqn:S; try discriminate.
      assert (C3 : colors known (fold_left direct_step items []) (pre ++ [e]) = Ok d2).
      { clear - C1 S. revert C1. generalize (fold_left direct_step items []) as d0. induction pre as [|x pre IH]; intros d0; cbn [app colors]. { intros C1; inversion C1; subst. now rewrite S. } destruct (color_step known d0 x); try discriminate. apply IH. }
      assert (E' : items = (pre ++ [e]) ++ post) by (rewrite <- app_assoc; exact E).
      destruct (lookup b d2) as [[x m]|] eqn:L2; [|apply (IH (pre ++ [e]) d2 E' C3 C2); congruence].
      assert (XM : (x, m) = (r, false)). { pose proof (colors_keep _ _ _ _ C2 _ _ L2) as Q. congruence. } inversion XM; subst x m. clear XM.
      destruct (prefix_known _ _ _ _ _ _ H E) as (d1' & d2' & K & S' & _ & C1' & _). assert (d1' = d1) by congruence. subst d1'.
      destruct e as [[c|p|c] r0]; cbn [color_step] in S; try (inversion S; subst; contradiction).
      destruct p as [|b1 [|b2 [|]]]; try discriminate. destruct (lookup b1 d1) as [[r1 m1]|] eqn:E1; destruct (lookup b2 d1) as [[r2 m2]|] eqn:E2.
      - inversion S; subst. contradiction.
      - destruct (known b2); [|discriminate]. inversion S; subst d2. rewrite lookup_store in L2. destruct (Nat.eqb b2 b); [inversion L2|contradiction].
      - destruct (known b1); [|discriminate]. inversion S; subst d2. rewrite lookup_store in L2. destruct (Nat.eqb b1 b); [inversion L2|contradiction].
      - destruct (known b1 && known b2); [|discriminate]. inversion S; subst d2. rewrite !lookup_store in L2. destruct (Nat.eqb b2 b); [inversion L2|]. destruct (Nat.eqb_spec b1 b) as [->|]; [|contradiction]. inversion L2; subst r.
        exists pre, b2, r0, post. split; [exact E|]. split; [|split; [|reflexivity]]; rewrite <- K; congruence. }
    apply (G items [] (fold_left direct_step items [])); trivial. intros Q. apply directs_mask in Q. destruct Q as [Q|[Q _]]; discriminate.
  - intros (pre & b2 & r0 & post & E & N1 & N2 & ->). destruct (prefix_known _ _ _ _ _ _ H E) as (d1 & d2 & K & S & L & _). rewrite <- K in N1, N2. cbn [color_step] in S.
    destruct (lookup b d1); [exfalso; apply N1; congruence|]. destruct (lookup b2 d1); [exfalso; apply N2; congruence|]. destruct (known b && known b2); [|discriminate]. inversion S; subst d2. apply L. rewrite !lookup_store, Nat.eqb_refl.
    destruct (Nat.eqb_spec b2 b) as [->|]; [|reflexivity]. exfalso. apply (NS b r0). rewrite E. apply in_or_app. right. now left.
Qed.
(** the bands are exactly those mentioned *)
Theorem C67_bands : forall known items d b, to_dicts known (map fst items) (map snd items) = Ok d -> (lookup b d <> None <-> given b items \/ in_color b items).
Proof.
  intros known items d b H. apply to_dicts_split in H. rewrite (colors_keys _ _ _ _ H). split; (intros [G|G]; [left|now right]).
  - destruct (given_dec b items) as [|N]; trivial. rewrite directs_none in G by trivial. now contradict G.
  - destruct (directs_in items [] b G) as [r ->]. congruence.
Qed.
(** it works for known bands and colors of two known bands, with as many rows as entries, and raises ValueError for another number of rows *)
Theorem C67_accepts : forall known bandsin arr,
  (length bandsin <> length arr -> to_dicts known bandsin arr = Raise ValueError) /\
  (length bandsin = length arr -> Forall (fun e => match e with BName b => known b = true | BObj _ => True | BColor p => exists b1 b2, p = [b1; b2] /\ known b1 = true /\ known b2 = true end) bandsin -> exists d, to_dicts known bandsin arr = Ok d).
Proof.
  intros known bandsin arr. unfold to_dicts. split; [intros N; destruct (Nat.eqb_spec (length bandsin) (length arr)); [contradiction|reflexivity]|]. intros ->%Nat.eqb_eq F.
  assert (check_all known bandsin = Ok tt) as ->. { induction F as [|e l W F IH]; [reflexivity|]. cbn [check_all]. destruct e; cbn [check_entry]; rewrite ?W; exact IH. }
  generalize (fold_left direct_step (combine bandsin arr) []) as d. revert arr. induction F as [|e l W F IH]; intros [|r arr] d; cbn [combine colors]; try (now exists d).
  assert (S : exists d', color_step known d (e, r) = Ok d'). { destruct e as [b|p|b]; cbn [color_step]; try (now exists d). destruct W as (b1 & b2 & -> & K1 & K2). rewrite K1, K2. destruct (lookup b1 d) as [[]|], (lookup b2 d) as [[]|]; eexists; reflexivity. }
  destruct S as [d' ->]. apply IH.
Qed.
(** a color of a band with itself *)
Theorem C67_same_refuted : exists items d r, to_dicts (fun _ => true) (map fst items) (map snd items) = Ok d /\ In (BColor [1%nat; 1%nat], [r]) items /\ r <> 0 /\ lookup 1%nat d = Some ([-1 * r], true).
Proof. exists [(BColor [1%nat; 1%nat], [1])]. eexists. exists 1. split; [reflexivity|]. split; [now left|]. split; [lra|reflexivity]. Qed.
Example C67_nonvacuous : exists d, to_dicts (fun _ => true) (map fst [(BColor [1; 2]%nat, [3]); (BName 2%nat, [20]); (BColor [3; 4]%nat, [1])]) (map snd [(BColor [1; 2]%nat, [3]); (BName 2%nat, [20]); (BColor [3; 4]%nat, [1])]) = Ok d
  /\ lookup 1%nat d = Some ([3 + 20], true) /\ lookup 3%nat d = Some ([0], false) /\ lookup 4%nat d = Some ([-1 * 1], true).
Proof. eexists. repeat split. Qed.
