(** * CatalogMore: the property theorems' proofs *)
From Coq Require Import List ZArith Lia Bool.
From stdpp Require Import gmap relations.
From Verif Require Import PyBase CatalogModel CatalogSpec CatalogForest CatalogVisit.
Import ListNotations.

Lemma setParent_char h n val : forest h -> is_Some (h !! n) ->
  (forall v, val = Some v -> is_Some (h !! v)) ->
  let '(h', r) := setParent (enough h) n val h in
  (r = Raise CycleError <-> exists v, val = Some v /\ within h n v) /\
  (r = Raise AttributeError <-> exists v y, val = Some v /\ ~ within h n v /\ h !! v = Some y /\ n_kind y = KAction) /\
  (r <> Ok tt -> h' = h) /\ r <> OutOfFuel /\
  (r = Ok tt -> forall m, h' !! m = option_map (reparented n val m) (h !! m)) /\
  (r = Ok tt \/ r = Raise CycleError \/ r = Raise AttributeError).
Proof.
  intros HF (x & Ex) Hv. destruct val as [v|].
  - destruct (Hv v eq_refl) as (y & Ey).
    destruct (cycleCheck_spec h v n HF) as [(Ec & Hw)|(Ec & Hw)]; [now exists y| |].
    + unfold setParent. rewrite Ex, Ec. split_and!; try (intros; congruence); auto.
      * split; eauto.
      * split; [discriminate|]. intros (v' & y' & E & Hn & _). congruence.
    + destruct (n_kind y) eqn:Ek.
      3:{ unfold setParent. rewrite Ex, Ec, Ey, Ek. split_and!; try (intros; congruence); auto.
          - split; [discriminate|]. intros (v' & E & Hn). congruence.
          - split; eauto 7. }
      all: destruct (setParent_spec h n (Some v) x HF Ex) as (h' & E & H); [split; [exists y; split; congruence|auto]|];
        rewrite E; split_and!; try (intros; congruence); auto;
        [split; [discriminate|]; intros (v' & E' & Hn); congruence
        |split; [discriminate|]; intros (v' & y' & E' & Hn & Ey' & Ek'); congruence].
  - destruct (setParent_spec h n None x HF Ex I) as (h' & E & H). rewrite E.
    split_and!; try (intros; congruence); auto.
    + split; [discriminate|]. intros (v' & E' & Hn); congruence.
    + split; [discriminate|]. intros (v' & y' & E' & Hn); congruence.
Qed.

(** the subtree moves as a whole *)
Lemma reparent_within h h' n val x : forest h -> h !! n = Some x ->
  match val with None => True | Some v => (exists y, h !! v = Some y) /\ ~ within h n v end ->
  (forall m, h' !! m = option_map (reparented n val m) (h !! m)) ->
  forall m, within h' n m <-> within h n m.
Proof.
  intros HF Ex Hval H' m. unfold within. split.
  - apply (rep_rtc h h' n val x Ex Hval H').
  - intros H. cut (forall b, rtc (parent_of h) m b -> b = n -> rtc (parent_of h') m b); [intros Hc; now apply Hc|].
    clear H. intros b H. induction H as [|a c b Hs Hr IH]; intros ->; [apply rtc_refl|].
    destruct (Nat.eq_dec a n) as [->|Ha]; [apply rtc_refl|].
    eapply rtc_l; [|apply IH; reflexivity]. apply (rep_parent h h' n val x Ex Hval H'). auto.
Qed.

Lemma visit_spec h n : forest h -> is_Some (h !! n) ->
  exists tr, root tr = n /\ represents h tr /\ List.NoDup (preorder tr) /\ (forall m, In m (preorder tr) <-> within h n m) /\
    nnodes h (enough h) n = Some (length (preorder tr)) /\
    forall St V (f : St -> nat -> St * option V) t flt incl s l, order_of t incl tr = Some l ->
      visit h (enough h) f t flt incl n s = Ok (visited f flt s l).
Proof.
  intros HF Hn. destruct (subtree h n HF Hn) as (tr & <- & HR & Hh).
  assert (Hfuel : height tr <= enough h) by (unfold enough; lia).
  exists tr. split_and!; auto.
  - eapply preorder_nodup; eauto.
  - intros m. now apply in_preorder.
  - now apply nnodes_spec.
  - intros St V f t flt incl s l Hl.
    assert (Hout : forall ord o, o = Some (calls (wrap flt f) s ord) -> out o flt = Ok (visited f flt s ord)).
    { intros ord o ->. unfold out, visited. destruct flt as [|g|same]; cbn [wrap drop].
      - destruct (calls f s ord); reflexivity.
      - pose proof (calls_wrap g f ord s) as Hc. destruct (calls f s (List.filter g ord)) as (s1, rs).
        destruct (calls (wrap (FPred g) f) s ord) as (s2, rs2) eqn:E2. cbn [wrap] in E2. rewrite E2.
        destruct Hc as (-> & E). rewrite E. do 2 f_equal. apply List.filter_ext. intros [v|]; reflexivity.
      - destruct (calls f s ord); reflexivity. }
    assert (Hord : forall k b ord, ord = (if b : bool then inorder k tr else without_root (inorder k) tr) ->
              out (visit_int h (enough h) (wrap flt f) k b (root tr) s) flt = Ok (visited f flt s ord)).
    { intros k b ord ->. apply Hout. now rewrite visit_int_calls. }
    destruct t as [k| | | | | |]; destruct incl; cbn [order_of] in Hl; try discriminate; injection Hl as <-; cbn [visit].
    + apply Hord; reflexivity.
    + apply Hord; reflexivity.
    + apply Hout. now rewrite visit_post_calls.
    + apply Hout. now rewrite visit_post_calls.
    + assert (Hpre : out (visit_int h (enough h) (wrap flt (wrap flt f)) 0 true (root tr) s) flt = Ok (visited f flt s (preorder tr))).
      { apply Hout. rewrite visit_int_calls by auto. rewrite inorder_zero. f_equal. apply calls_ext. apply wrap_wrap. }
      rewrite Hpre. destruct (visited f flt s (preorder tr)) as (s', rs) eqn:Ev. do 2 f_equal.
      unfold out in Hpre. destruct (visit_int _ _ _ _ _ _ _) as [(s2, rs2)|]; [|discriminate].
      injection Hpre as -> <-. apply drop_drop.
    + assert (Hpre : out (visit_int h (enough h) (wrap flt (wrap flt f)) 0 false (root tr) s) flt = Ok (visited f flt s (without_root preorder tr))).
      { apply Hout. rewrite visit_int_calls by auto. f_equal. rewrite (calls_ext _ _ (wrap_wrap flt f)). f_equal.
        destruct tr as [a ts]. cbn. apply flat_map_ext. apply inorder_zero. }
      rewrite Hpre. destruct (visited f flt s (without_root preorder tr)) as (s', rs) eqn:Ev. do 2 f_equal.
      unfold out in Hpre. destruct (visit_int _ _ _ _ _ _ _) as [(s2, rs2)|]; [|discriminate].
      injection Hpre as -> <-. apply drop_drop.
    + apply Hout. rewrite level_calls; auto. pose proof (preorder_size h tr HF HR). unfold enough. lia.
    + pose proof (Hout [root tr] _ eq_refl) as Ho. cbn [calls] in Ho. destruct (wrap flt f s (root tr)) as (s', v). exact Ho.
    + pose proof (Hout [root tr] _ eq_refl) as Ho. cbn [calls] in Ho. destruct (wrap flt f s (root tr)) as (s', v). exact Ho.
Qed.

Lemma addChild_char h p y n : forest h -> h !! p = Some y ->
  let '(h', r) := addChild p n h in
  ((forall x, h !! n = Some x -> n_kind x <> KField) -> r = Raise ValueError /\ h' = h) /\
  (forall x, h !! n = Some x -> n_kind x = KField ->
     (within h n p -> r = Raise CycleError /\ h' = h) /\
     (~ within h n p -> n_kind y = KAction -> r = Raise AttributeError /\ h' = h) /\
     (~ within h n p -> n_kind y <> KAction -> r = Ok tt /\ forall m, h' !! m = option_map (reparented n (Some p) m) (h !! m))).
Proof.
  intros HF Ey. unfold addChild. destruct (h !! n) as [x|] eqn:Ex.
  2:{ split; [auto|]. intros x E; discriminate. }
  destruct (n_kind x) eqn:Ek.
  1,3: split; [auto|]; intros x' E E'; congruence.
  pose proof (setParent_char h n (Some p) HF) as Hc. destruct (setParent (enough h) n (Some p) h) as (h', r).
  destruct Hc as (C1 & C2 & C3 & C4 & C5 & C6); [now exists x|intros v Ev; exists y; congruence|].
  split; [intros H; exfalso; now apply (H x)|]. intros x' _ _. split_and!.
  - intros Hw. assert (Hr : r = Raise CycleError) by (apply C1; eauto). split; auto. apply C3. congruence.
  - intros Hw Hk. assert (Hr : r = Raise AttributeError) by (apply C2; eauto 8). split; auto. apply C3. congruence.
  - intros Hw Hk. assert (Hr : r = Ok tt); [|auto]. destruct C6 as [H|[H|H]]; auto.
    + apply C1 in H. destruct H as (v & E & Hv). congruence.
    + apply C2 in H. destruct H as (v & y' & E & _ & Ey' & Ek'). congruence.
Qed.

Lemma newNode_char h n k p y (fails : bool) : forest h -> h !! n = None -> h !! p = Some y -> n_kind y <> KAction ->
  exists h', newNode n k (Some p) fails h = (h', if fails then Raise IndexError else Ok tt) /\
    h' !! n = Some {| n_kind := k; n_parent := Some p; n_children := [] |} /\
    h' !! p = Some (with_children (n_children y ++ [n]) y) /\
    forall m, m <> n -> m <> p -> h' !! m = h !! m.
Proof.
  intros HF En Ey Hk. pose proof (insert_isolated_forest h n k HF En) as HF1. unfold newNode. rewrite En.
  set (h1 := <[n := _]> h) in *.
  assert (E1n : h1 !! n = Some {| n_kind := k; n_parent := None; n_children := [] |}) by apply lookup_insert.
  assert (Hpn : p <> n) by congruence.
  assert (E1p : h1 !! p = Some y) by (unfold h1; now rewrite lookup_insert_ne by auto).
  assert (Hsub : forall m z, h !! m = Some z -> ~ In n (n_children z)).
  { intros m z Ez Hin. assert (Hc : child_of h m n) by (exists z; auto). apply HF in Hc. destruct Hc as (w & Ew & _). congruence. }
  destruct (setParent_spec h1 n (Some p) _ HF1 E1n) as (h' & E' & H').
  { split; [eauto|]. intros Hw. unfold within in Hw. apply rtc_inv_r in Hw. destruct Hw as [->|(d & _ & Hd)]; [congruence|].
    destruct HF1 as (HL1 & _). apply HL1 in Hd. destruct Hd as (z & Ez & Hin). rewrite E1n in Ez. injection Ez as <-. destruct Hin. }
  rewrite E'. exists h'. split; [destruct fails; reflexivity|]. split_and!.
  - rewrite H', E1n. cbn [option_map]. f_equal. unfold reparented. cbn. rewrite Nat.eqb_refl.
    destruct (Nat.eqb_spec n p); [congruence|reflexivity].
  - rewrite H', E1p. cbn [option_map]. f_equal. unfold reparented, with_children. rewrite Nat.eqb_refl.
    rewrite others_notin by eauto. destruct (Nat.eqb_spec p n); [congruence|reflexivity].
  - intros m Hmn Hmp. rewrite H'. unfold h1. rewrite lookup_insert_ne by auto. destruct (h !! m) as [z|] eqn:Ez; [|reflexivity].
    cbn [option_map]. f_equal. unfold reparented. rewrite others_notin by eauto.
    destruct (Nat.eqb_spec m n); [congruence|]. destruct (Nat.eqb_spec m p); [congruence|]. rewrite app_nil_r. destruct z; reflexivity.
Qed.

Lemma removeChild_char h p y n eqv : forest h -> h !! p = Some y -> n_kind y = KCatalog ->
  (forall c, In c (n_children y) -> eqv c n = true -> c = n) ->
  let '(h', r) := removeChild eqv p n h in
  (child_of h p n -> r = Ok tt /\ forall m, h' !! m = option_map (reparented n None m) (h !! m)) /\
  (~ child_of h p n -> r = Raise ValueError /\ h' = h).
Proof.
  intros HF Ey Ek Heq. unfold removeChild. rewrite Ey, Ek.
  destruct (existsb _ (n_children y)) eqn:E.
  - apply existsb_exists in E. destruct E as (c & Hc & E). apply orb_true_iff in E.
    assert (c = n) as ->. { destruct E as [E|E]; [now apply Nat.eqb_eq|auto]. }
    assert (Hch : child_of h p n) by (exists y; auto).
    pose proof Hch as Hp. apply HF in Hp. destruct Hp as (x & Ex & _).
    destruct (setParent_spec h n None x HF Ex I) as (h' & E' & H). rewrite E'. split; [auto|]. intros Hn. contradiction.
  - split; [|auto]. intros (y' & Ey' & Hin). exfalso. replace y' with y in Hin by congruence.
    assert (Ht : existsb (fun c => ((c =? n) || eqv c n)%bool) (n_children y) = true).
    { apply existsb_exists. exists n. rewrite Nat.eqb_refl. auto. }
    congruence.
Qed.

Lemma reorder_char h p y l : forest h -> h !! p = Some y -> n_kind y <> KAction ->
  length l = length (n_children y) -> List.NoDup l -> Forall (fun i => i < length (n_children y)) l ->
  exists cs, reorderChildren p (NOSeq (List.map Z.of_nat l)) false h = (<[p := with_children cs y]> h, Ok tt) /\
    Permutation cs (n_children y) /\ forall k i, nth_error l k = Some i -> nth_error cs k = nth_error (n_children y) i.
Proof.
  intros HF Ey Hk Hlen Hnd Hr. unfold reorderChildren. rewrite Ey. cbn zeta.
  assert (Hu : z_unique (List.map Z.of_nat l) = true).
  { apply z_unique_NoDup. apply FinFun.Injective_map_NoDup; auto. intros a b; lia. }
  assert (Ht : exists cs, take_all (n_children y) (List.map Z.of_nat l) = Some cs /\
            forall k i, nth_error l k = Some i -> nth_error cs k = nth_error (n_children y) i).
  { clear Hlen Hnd Hu. induction Hr as [|i r Hi Hr IH]; cbn [List.map take_all].
    - exists []. split; auto. intros [|k] i; discriminate.
    - destruct IH as (cs & E & H). rewrite py_get_nat, E. destruct (nth_error (n_children y) i) as [c|] eqn:Ec.
      + exists (c :: cs). split; auto. intros [|k] j Hj; cbn in *; [congruence|auto].
      + apply nth_error_None in Ec. lia. }
  destruct Ht as (cs & Et & Hn). exists cs. rewrite map_length, Hlen, Nat.eqb_refl, Hu, Et. cbn [negb].
  split; [destruct (n_kind y); congruence|]. split; auto.
  eapply (take_all_perm (n_children y) (List.map Z.of_nat l)); eauto.
  - apply nodup_std. destruct HF as (_ & HN & _). eauto.
  - clear. apply List.Forall_forall. intros z Hz. apply in_map_iff in Hz. destruct Hz as (i & <- & _). lia.
  - now rewrite map_length.
Qed.
