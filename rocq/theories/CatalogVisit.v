(** * CatalogVisit: traversals *)
From Coq Require Import List ZArith Lia Bool.
From stdpp Require Import gmap relations.
From Verif Require Import PyBase CatalogModel CatalogSpec CatalogForest.
Import ListNotations.

Lemma tree_ind2 (P : tree -> Prop) (H : forall n ts, List.Forall P ts -> P (T n ts)) : forall t, P t.
Proof.
  fix IH 1. intros [n ts]. apply H. induction ts as [|t r IHr]; constructor; [apply IH|exact IHr].
Qed.

Lemma represents_unfold h n ts :
  represents h (T n ts) <-> (exists x, h !! n = Some x /\ n_children x = List.map root ts) /\ List.Forall (represents h) ts.
Proof.
  cbn. split; intros (H1 & H2); split; auto.
  - clear H1. induction ts as [|t r IH]; constructor; [apply H2|]. apply IH, H2.
  - clear H1. induction H2 as [|t r Ht Hr IH]; auto.
Qed.

Lemma height_unfold n ts : height (T n ts) = S (fold_right Nat.max 0 (List.map height ts)).
Proof. reflexivity. Qed.
Lemma max_height_le ts k : fold_right Nat.max 0 (List.map height ts) <= k <-> List.Forall (fun t => height t <= k) ts.
Proof.
  induction ts as [|t r IH]; cbn [List.map fold_right].
  - split; [constructor|lia].
  - rewrite Nat.max_lub_iff, IH. split; [intros (? & ?); now constructor|intros H; inversion H; auto].
Qed.
Lemma height_T_le n ts k : height (T n ts) <= S k <-> List.Forall (fun t => height t <= k) ts.
Proof. rewrite height_unfold, <- max_height_le. lia. Qed.

(** ** the subtree below a node exists *)
Lemma subtree_gen h (HF : forest h) : forall fuel n l, is_Some (h !! n) -> NoDup l ->
  (forall x, In x l -> is_Some (h !! x) /\ tc (parent_of h) n x) -> size h <= length l + fuel ->
  exists t, root t = n /\ represents h t /\ height t <= fuel.
Proof.
  induction fuel as [|fuel IH]; intros n l Hn Hl Hx Hs.
  - exfalso. assert (Hlen : length (n :: l) <= size h); [|cbn in Hlen; lia].
    apply size_nodup.
    + constructor; auto. intros Hin. apply elem_of_list_In in Hin. destruct HF as (_ & _ & HA).
      apply (HA n). now apply Hx.
    + intros y [<-|Hy]; auto. now apply Hx.
  - destruct Hn as (x & Ex).
    assert (Hch : forall cs, (forall c, In c cs -> In c (n_children x)) ->
              exists ts, List.map root ts = cs /\ List.Forall (represents h) ts /\ List.Forall (fun t => height t <= fuel) ts).
    { induction cs as [|c r IHc]; intros Hin.
      - exists []. repeat split; constructor.
      - destruct IHc as (ts & E & H1 & H2); [intros; apply Hin; now right|].
        assert (Hp : parent_of h c n). { apply HF. exists x. split; auto. apply Hin. now left. }
        destruct (IH c (n :: l)) as (t & Et & Rt & Ht).
        { destruct Hp as (z & Ez & _). now exists z. }
        { constructor; auto. intros H. apply elem_of_list_In in H. destruct HF as (_ & _ & HA). apply (HA n). now apply Hx. }
        { intros y [<-|Hy]; [split; [now exists x|now apply tc_once]|].
          destruct (Hx y Hy) as (D & Ht). split; auto. eapply tc_l; eauto. }
        { cbn. lia. }
        exists (t :: ts). cbn. rewrite Et, E. split; [reflexivity|split; constructor; auto]. }
    destruct (Hch (n_children x) (fun c H => H)) as (ts & E & H1 & H2).
    exists (T n ts). split; [reflexivity|]. split; [apply represents_unfold; eauto|now apply height_T_le].
Qed.
Lemma subtree h n : forest h -> is_Some (h !! n) ->
  exists t, root t = n /\ represents h t /\ height t <= size h.
Proof.
  intros HF Hn. apply (subtree_gen h HF (size h) n []); auto; [constructor|intros ? []].
Qed.

Lemma represents_unique h t1 : forall t2, represents h t1 -> represents h t2 -> root t1 = root t2 -> t1 = t2.
Proof.
  induction t1 as [n ts IH] using tree_ind2. intros [m us] H1 H2 E. cbn in E. subst m.
  apply represents_unfold in H1, H2. destruct H1 as ((x & Ex & Ec) & F1), H2 as ((y & Ey & Ed) & F2).
  assert (Em : List.map root ts = List.map root us) by congruence. f_equal. clear -IH Em F1 F2.
  revert us Em F2. induction ts as [|t r IHr]; intros [|u us] Em F2; try discriminate; auto.
  cbn in Em. injection Em as E1 E2. inversion IH; inversion F1; inversion F2; subst. f_equal; auto.
Qed.

(** ** nodes of the subtree *)
Lemma in_preorder_root t : In (root t) (preorder t).
Proof. destruct t. now left. Qed.

Lemma preorder_within h t : forest h -> represents h t -> forall m, In m (preorder t) -> within h (root t) m.
Proof.
  intros HF. induction t as [n ts IH] using tree_ind2. intros HR m [<-|Hin]; [apply rtc_refl|].
  apply represents_unfold in HR. destruct HR as ((x & Ex & Ec) & HFa).
  apply in_flat_map in Hin. destruct Hin as (t & Ht & Hm).
  rewrite List.Forall_forall in IH, HFa. pose proof (IH t Ht (HFa t Ht) m Hm) as Hw.
  unfold within in *. cbn [root]. eapply rtc_r; [exact Hw|]. apply HF. exists x. split; auto. rewrite Ec.
  now apply List.in_map.
Qed.
Lemma preorder_closed h t : represents h t -> forall c m, In c (preorder t) -> child_of h c m -> In m (preorder t).
Proof.
  induction t as [n ts IH] using tree_ind2. intros HR c m Hc Hm.
  apply represents_unfold in HR. destruct HR as ((x & Ex & Ec) & HFa). rewrite List.Forall_forall in IH, HFa.
  cbn [preorder] in *. right. apply in_flat_map. destruct Hc as [<-|Hc].
  - destruct Hm as (y & Ey & Hin). replace y with x in Hin by congruence. rewrite Ec in Hin.
    apply in_map_iff in Hin. destruct Hin as (t & <- & Ht). exists t. split; auto. apply in_preorder_root.
  - apply in_flat_map in Hc. destruct Hc as (t & Ht & Hc). exists t. split; auto. eapply IH; eauto.
Qed.
Lemma in_preorder h t m : forest h -> represents h t -> (In m (preorder t) <-> within h (root t) m).
Proof.
  intros HF HR. split; [now apply preorder_within|].
  intros Hw. unfold within in Hw. remember (root t) as b eqn:Eb.
  assert (Hb : In b (preorder t)) by (subst; apply in_preorder_root). clear Eb.
  induction Hw as [|a c b Hs Hr IH]; auto. apply (preorder_closed h t HR c a); [auto|]. destruct HF as (HL & _). now apply HL.
Qed.
Lemma ancestors_linear h m a b : within h a m -> within h b m -> within h b a \/ within h a b.
Proof.
  unfold within. intros H. revert b. induction H as [a|m c a Hs Hr IH]; intros b Hb; [now left|].
  inversion Hb as [|? d ? Hd Hdb]; subst.
  - right. eapply rtc_l; eauto.
  - apply IH. rewrite (parent_fun h m c d) by auto. exact Hdb.
Qed.
Lemma siblings_disjoint h n c d m : forest h -> parent_of h c n -> parent_of h d n -> c <> d ->
  within h c m -> within h d m -> False.
Proof.
  intros (_ & _ & HA) Hc Hd Hne H1 H2.
  assert (Hgen : forall a b, parent_of h a n -> parent_of h b n -> a <> b -> within h b a -> False).
  { clear -HA. intros a b Ha Hb Hne Hw. unfold within in Hw. inversion Hw as [|? e ? He Heb]; subst; [congruence|].
    rewrite (parent_fun h a e n) in Heb by auto. apply (HA n). eapply tc_rtc_l; [exact Heb|]. now apply tc_once. }
  destruct (ancestors_linear h m c d H1 H2); [eapply (Hgen c d)|eapply (Hgen d c)]; eauto.
Qed.
Lemma preorder_nodup h t : forest h -> represents h t -> List.NoDup (preorder t).
Proof.
  intros HF. induction t as [n ts IH] using tree_ind2. intros HR. pose proof HR as HR0.
  apply represents_unfold in HR. destruct HR as ((x & Ex & Ec) & HFa).
  assert (Hpar : forall t, In t ts -> parent_of h (root t) n).
  { intros t Ht. apply HF. exists x. split; auto. rewrite Ec. now apply List.in_map. }
  assert (Hnd : List.NoDup (List.map root ts)). { rewrite <- Ec. apply nodup_std. destruct HF as (_ & HN & _). eauto. }
  cbn [preorder]. constructor.
  - intros Hin. apply in_flat_map in Hin. destruct Hin as (t & Ht & Hin). rewrite List.Forall_forall in HFa.
    pose proof (preorder_within h t HF (HFa t Ht) n Hin) as Hw. destruct HF as (_ & _ & HA). apply (HA n).
    eapply tc_rtc_l; [exact Hw|]. apply tc_once. auto.
  - clear HR0 Ec. induction ts as [|t r IHr]; [constructor|]. cbn [flat_map].
    inversion IH as [|? ? It Ir]; inversion HFa as [|? ? Ft Fr]; subst. cbn [List.map] in Hnd. inversion Hnd as [|? ? N1 N2]; subst.
    apply nodup_std, NoDup_app. split_and!.
    + apply nodup_std. auto.
    + intros m Hm1 Hm2. apply elem_of_list_In in Hm1, Hm2. apply in_flat_map in Hm2. destruct Hm2 as (u & Hu & Hm2).
      rewrite List.Forall_forall in Fr.
      eapply (siblings_disjoint h n (root t) (root u) m HF).
      * apply Hpar. now left.
      * apply Hpar. now right.
      * intros E. apply N1. rewrite E. now apply List.in_map.
      * now apply preorder_within.
      * apply preorder_within; auto.
    + apply nodup_std, IHr; auto. intros; apply Hpar; now right.
Qed.
Lemma preorder_dom h t m : represents h t -> In m (preorder t) -> is_Some (h !! m).
Proof.
  induction t as [n ts IH] using tree_ind2. intros HR [<-|Hin]; apply represents_unfold in HR;
    destruct HR as ((x & Ex & Ec) & HFa); [now exists x|].
  apply in_flat_map in Hin. destruct Hin as (t & Ht & Hm). rewrite List.Forall_forall in IH, HFa. eauto.
Qed.
Lemma preorder_size h t : forest h -> represents h t -> length (preorder t) <= size h.
Proof.
  intros HF HR. apply size_nodup; [apply nodup_std; eapply preorder_nodup; eauto|].
  intros m. now apply preorder_dom.
Qed.

(** ** orders are permutations of each other *)
Lemma flat_map_perm {A B} (f g : A -> list B) l : List.Forall (fun x => Permutation (f x) (g x)) l ->
  Permutation (flat_map f l) (flat_map g l).
Proof. induction 1; cbn; [constructor|]. now apply Permutation_app. Qed.
Lemma postorder_perm t : Permutation (postorder t) (preorder t).
Proof.
  induction t as [n ts IH] using tree_ind2. cbn. etransitivity; [symmetry; apply Permutation.Permutation_cons_append|].
  apply Permutation.perm_skip. now apply flat_map_perm.
Qed.
Fixpoint inorder_go (k : Z) (n : nat) (i : Z) (ts : list tree) (doroot : bool) : list nat :=
  match ts with
  | [] => if doroot then [n] else []
  | t :: r => (if Z.eqb i k then [n] else []) ++ inorder k t ++ inorder_go k n (i + 1)%Z r (if Z.eqb i k then false else doroot)
  end.
Lemma inorder_unfold k n ts : inorder k (T n ts) = inorder_go k n 0 ts true.
Proof.
  cbn. generalize 0%Z, true. induction ts as [|t r IH]; intros i b; [reflexivity|]. cbn. now rewrite IH.
Qed.
Lemma inorder_go_perm k n ts : List.Forall (fun t => Permutation (inorder k t) (preorder t)) ts -> forall i b,
  (b = true -> True) ->
  (b = false -> (k < i)%Z) ->
  Permutation (inorder_go k n i ts b) ((if b then [n] else []) ++ flat_map preorder ts).
Proof.
  induction 1 as [|t r Ht Hr IH]; intros i b _ Hb; cbn [inorder_go flat_map].
  - destruct b; reflexivity.
  - destruct (Z.eqb_spec i k) as [->|Hne].
    + destruct b; [|exfalso; specialize (Hb eq_refl); lia].
      apply Permutation_app; [reflexivity|]. apply Permutation_app; [exact Ht|].
      apply (IH (k + 1)%Z false); auto. intros; lia.
    + cbn [app]. rewrite (IH (i + 1)%Z b), Ht; auto. 2:{ intros E; specialize (Hb E); lia. }
      rewrite !app_assoc. apply Permutation_app; [|reflexivity]. apply Permutation.Permutation_app_comm.
Qed.
Lemma inorder_perm k t : Permutation (inorder k t) (preorder t).
Proof.
  induction t as [n ts IH] using tree_ind2. rewrite inorder_unfold.
  apply (inorder_go_perm k n ts IH 0 true); auto. discriminate.
Qed.
Lemma inorder_zero t : inorder 0 t = preorder t.
Proof.
  induction t as [n ts IH] using tree_ind2. rewrite inorder_unfold. destruct ts as [|t r]; [reflexivity|].
  cbn [inorder_go preorder flat_map Z.eqb]. inversion IH as [|? ? Ht Hr]; subst. cbn [app]. f_equal. rewrite Ht. f_equal.
  clear -Hr. cut (forall i, (0 < i)%Z -> inorder_go 0 n i r false = flat_map preorder r); [intros H; apply H; lia|].
  induction Hr as [|t r Ht Hr IH]; intros i Hi; [reflexivity|]. cbn [inorder_go flat_map].
  destruct (Z.eqb_spec i 0); [lia|]. cbn [app]. rewrite Ht, IH by lia. reflexivity.
Qed.
(** an index no child has: the node comes last *)
Lemma inorder_neg k t : (k < 0)%Z -> inorder k t = postorder t.
Proof.
  intros Hk. induction t as [n ts IH] using tree_ind2. rewrite inorder_unfold. cbn [postorder].
  cut (forall i, (0 <= i)%Z -> inorder_go k n i ts true = flat_map postorder ts ++ [n]); [intros H; apply H; lia|].
  induction IH as [|t r Ht Hr IH]; intros i Hi; [reflexivity|]. cbn [inorder_go flat_map].
  destruct (Z.eqb_spec i k); [lia|]. cbn [app]. rewrite Ht, IH by lia. now rewrite app_assoc.
Qed.

Definition kids (t : tree) : list tree := match t with T _ ts => ts end.
Lemma level_S d t : level (S d) t = flat_map (level d) (kids t).
Proof. destruct t. reflexivity. Qed.
Lemma level_0 t : level 0 t = [root t].
Proof. destruct t. reflexivity. Qed.
Definition levels (H : nat) (ts : list tree) : list nat := flat_map (fun d => flat_map (level d) ts) (seq 0 H).
Lemma flat_map_flat_map {A B C} (f : B -> list C) (g : A -> list B) l :
  flat_map f (flat_map g l) = flat_map (fun x => flat_map f (g x)) l.
Proof. induction l as [|x r IH]; cbn; [reflexivity|]. now rewrite flat_map_app, IH. Qed.
Lemma flat_map_single {A B} (f : A -> B) l : flat_map (fun x => [f x]) l = List.map f l.
Proof. induction l; cbn; congruence. Qed.
Lemma levels_S H ts : levels (S H) ts = List.map root ts ++ levels H (flat_map kids ts).
Proof.
  unfold levels. cbn [seq flat_map]. f_equal.
  - rewrite <- flat_map_single. apply flat_map_ext. apply level_0.
  - rewrite <- seq_shift, flat_map_concat_map, map_map, <- flat_map_concat_map.
    apply flat_map_ext. intros d. rewrite flat_map_flat_map. apply flat_map_ext. intros t. apply level_S.
Qed.
Lemma levels_nil H : levels H [] = [].
Proof. unfold levels. induction (seq 0 H); cbn; auto. Qed.
Lemma levels_more H ts : List.Forall (fun t => height t <= H) ts -> levels (S H) ts = levels H ts.
Proof.
  revert ts. induction H as [|H IH]; intros ts Ht.
  - destruct ts as [|t r]; [reflexivity|]. inversion Ht as [|? ? Hh Hr]; subst. destruct t; cbn in Hh; lia.
  - rewrite (levels_S (S H) ts), (levels_S H ts), IH; auto. rewrite List.Forall_forall. intros u Hu. apply in_flat_map in Hu.
    destruct Hu as ([n us] & H1 & H2). rewrite List.Forall_forall in Ht. specialize (Ht _ H1).
    apply height_T_le in Ht. rewrite List.Forall_forall in Ht. now apply Ht.
Qed.
Lemma levelorder_levels t : levelorder t = levels (height t) [t].
Proof. unfold levelorder, levels. apply flat_map_ext. intros d. cbn. now rewrite app_nil_r. Qed.

Lemma levels_perm H : forall ts, List.Forall (fun t => height t <= H) ts -> Permutation (levels H ts) (flat_map preorder ts).
Proof.
  induction H as [|H IH]; intros ts Ht.
  - destruct ts as [|t r]; [reflexivity|]. inversion Ht as [|? ? Hh Hr]; subst. destruct t; cbn in Hh; lia.
  - rewrite levels_S, IH.
    + clear. rewrite flat_map_flat_map. induction ts as [|[n us] r IH]; [reflexivity|]. cbn [List.map flat_map preorder root kids app].
      apply Permutation.perm_skip. rewrite <- IH. rewrite !app_assoc. apply Permutation_app; [|reflexivity].
      apply Permutation.Permutation_app_comm.
    + rewrite List.Forall_forall. intros u Hu. apply in_flat_map in Hu.
      destruct Hu as ([n us] & H1 & H2). rewrite List.Forall_forall in Ht. specialize (Ht _ H1).
      apply height_T_le in Ht. rewrite List.Forall_forall in Ht. now apply Ht.
Qed.
Lemma levelorder_perm t : Permutation (levelorder t) (preorder t).
Proof.
  rewrite levelorder_levels, levels_perm; [cbn; now rewrite app_nil_r|]. constructor; auto.
Qed.

(** ** the traversals call the function along the orders *)
Section Visit.
Context {St V : Type} (h : heap).
Notation R := (option V).
Implicit Types (f : @fcall St V) (s : St).

Lemma calls_app f s l1 l2 : calls f s (l1 ++ l2) =
  let '(s1, r1) := calls f s l1 in let '(s2, r2) := calls f s1 l2 in (s2, r1 ++ r2).
Proof.
  revert s; induction l1 as [|n r IH]; intros s; cbn [calls app].
  - destruct (calls f s l2); reflexivity.
  - destruct (f s n) as (s1, v). rewrite IH. destruct (calls f s1 r) as (s2, r1), (calls f s2 l2); reflexivity.
Qed.

Lemma visit_list_calls rec f order ts : List.Forall (fun t => forall s, rec (root t) s = Some (calls f s (order t))) ts ->
  forall s, visit_list rec (List.map root ts) s = Some (calls f s (flat_map order ts)).
Proof.
  induction 1 as [|t r Ht Hr IH]; intros s; cbn [List.map visit_list flat_map]; [reflexivity|].
  rewrite Ht, calls_app. destruct (calls f s (order t)) as (s1, r1). rewrite IH. destruct (calls f s1 _); reflexivity.
Qed.

Lemma visit_post_calls f : forall fuel t incl s, represents h t -> height t <= fuel ->
  visit_post h fuel f incl (root t) s =
  Some (calls f s (if incl : bool then postorder t else without_root postorder t)).
Proof.
  induction fuel as [|fuel IH]; intros [n ts] incl s HR Hh; [cbn in Hh; lia|].
  apply represents_unfold in HR. destruct HR as ((x & Ex & Ec) & HFa). apply height_T_le in Hh.
  cbn [root visit_post]. rewrite Ex, Ec.
  assert (Hvl : forall s0, visit_list (visit_post h fuel f true) (List.map root ts) s0 = Some (calls f s0 (flat_map postorder ts))).
  { apply visit_list_calls. rewrite List.Forall_forall in *. intros t Ht s0. rewrite IH; auto. }
  rewrite Hvl. destruct incl; cbn [postorder without_root].
  - rewrite calls_app. destruct (calls f s (flat_map postorder ts)) as (s1, r1). cbn [calls].
    destruct (f s1 n); reflexivity.
  - destruct (calls f s (flat_map postorder ts)); reflexivity.
Qed.

Lemma int_loop_calls rec f k n ts : List.Forall (fun t => forall s, rec (root t) s = Some (calls f s (inorder k t))) ts ->
  forall incl i s b, int_loop rec f k incl n i (List.map root ts) s b =
    Some (calls f s (if incl : bool then inorder_go k n i ts b else flat_map (inorder k) ts)).
Proof.
  intros H incl. induction H as [|t r Ht Hr IH]; intros i s b; cbn [List.map int_loop inorder_go flat_map].
  - destruct b, incl; cbn [andb calls]; try reflexivity. destruct (f s n); reflexivity.
  - destruct incl.
    + rewrite andb_true_r. destruct (Z.eqb i k).
      * cbn [app calls]. destruct (f s n) as (s1, v). rewrite Ht, calls_app.
        destruct (calls f s1 (inorder k t)) as (s2, r1). rewrite IH. destruct (calls f s2 _); reflexivity.
      * cbn [app]. rewrite Ht, calls_app. destruct (calls f s (inorder k t)) as (s2, r1). rewrite IH.
        destruct (calls f s2 _); reflexivity.
    + rewrite andb_false_r. rewrite Ht, calls_app. destruct (calls f s (inorder k t)) as (s2, r1). rewrite IH.
      destruct (calls f s2 _); reflexivity.
Qed.
Lemma visit_int_calls f k : forall fuel t incl s, represents h t -> height t <= fuel ->
  visit_int h fuel f k incl (root t) s =
  Some (calls f s (if incl : bool then inorder k t else without_root (inorder k) t)).
Proof.
  induction fuel as [|fuel IH]; intros [n ts] incl s HR Hh; [cbn in Hh; lia|].
  apply represents_unfold in HR. destruct HR as ((x & Ex & Ec) & HFa). apply height_T_le in Hh.
  cbn [root visit_int]. rewrite Ex, Ec. rewrite int_loop_calls.
  - rewrite inorder_unfold. reflexivity.
  - rewrite List.Forall_forall in *. intros t Ht s0. rewrite IH; auto.
Qed.

Definition nodes (ts : list tree) : nat := length (flat_map preorder ts).
Lemma level_loop_calls f : forall fuel ts1 ts2 H s,
  List.Forall (represents h) (ts1 ++ ts2) -> nodes (ts1 ++ ts2) <= fuel ->
  List.Forall (fun t => height t <= H) (ts2 ++ flat_map kids ts1) ->
  level_loop h fuel f (List.map root (ts1 ++ ts2)) s =
  Some (calls f s (List.map root ts1 ++ levels H (ts2 ++ flat_map kids ts1))).
Proof.
  induction fuel as [|fuel IH].
  - intros ts1 ts2 H s HR Hf Hh. assert (Hnil : ts1 ++ ts2 = []).
    { destruct (ts1 ++ ts2) as [|[n us] r]; [reflexivity|]. unfold nodes in Hf. cbn in Hf. lia. }
    apply app_eq_nil in Hnil. destruct Hnil as (-> & ->). cbn. rewrite levels_nil. reflexivity.
  - assert (Hcons : forall n us r ts2 H s,
      List.Forall (represents h) ((T n us :: r) ++ ts2) -> nodes ((T n us :: r) ++ ts2) <= S fuel ->
      List.Forall (fun t => height t <= H) (ts2 ++ flat_map kids (T n us :: r)) ->
      level_loop h (S fuel) f (List.map root ((T n us :: r) ++ ts2)) s =
      Some (calls f s (List.map root (T n us :: r) ++ levels H (ts2 ++ flat_map kids (T n us :: r))))).
    { intros n us r ts2 H s HR Hf Hh. cbn [app] in HR. inversion HR as [|? ? H1 H2]; subst.
      apply represents_unfold in H1. destruct H1 as ((x & Ex & Ec) & HFa).
      cbn [app List.map root level_loop calls]. rewrite Ex. destruct (f s n) as (s1, v).
      rewrite Ec, <- map_app, <- app_assoc. rewrite (IH r (ts2 ++ us) H).
      - cbn [flat_map kids]. rewrite <- app_assoc. destruct (calls f s1 _); reflexivity.
      - rewrite app_assoc. apply List.Forall_app. split; auto.
      - unfold nodes in *. cbn [app flat_map preorder length] in Hf. rewrite !flat_map_app, !app_length in *. lia.
      - cbn [flat_map kids] in Hh. now rewrite <- app_assoc. }
    intros [|[n us] r] ts2 H s HR Hf Hh; [|now apply Hcons].
    destruct ts2 as [|[n us] r]; [cbn; rewrite levels_nil; reflexivity|].
    cbn [app flat_map List.map] in *. rewrite app_nil_r in *.
    destruct H as [|H]; [inversion Hh as [|? ? Hx Hy]; cbn in Hx; lia|].
    rewrite levels_S. pose proof (Hcons n us r [] H s) as Hc. cbn [app] in Hc. rewrite app_nil_r in Hc.
    apply Hc; auto. clear -Hh. rewrite List.Forall_forall. intros u Hu.
    assert (Hu2 : In u (flat_map kids (T n us :: r))) by exact Hu. clear Hu. rename Hu2 into Hu. apply in_flat_map in Hu.
    destruct Hu as ([m ws] & H1 & H2). rewrite List.Forall_forall in Hh. specialize (Hh _ H1).
    apply height_T_le in Hh. rewrite List.Forall_forall in Hh. now apply Hh.
Qed.
Lemma level_calls f fuel t s : represents h t -> length (preorder t) <= fuel ->
  level_loop h fuel f [root t] s = Some (calls f s (levelorder t)).
Proof.
  intros HR Hf. pose proof (level_loop_calls f fuel [t] [] (height t) s) as Hl. cbn [app List.map flat_map] in Hl.
  rewrite app_nil_r in Hl. rewrite Hl.
  - rewrite levelorder_levels. destruct (height t) as [|k] eqn:Ek; [destruct t; discriminate|].
    rewrite (levels_S k [t]). cbn [List.map flat_map]. rewrite app_nil_r. rewrite levels_more; [reflexivity|].
    destruct t as [n ts]. cbn [kids]. apply (height_T_le n). lia.
  - constructor; auto.
  - unfold nodes. cbn. now rewrite app_nil_r.
  - destruct t as [n ts]. cbn [kids]. assert (Hle : height (T n ts) <= S (height (T n ts))) by lia. now apply height_T_le in Hle.
Qed.

(** filters *)
Lemma calls_wrap g f : forall l s, let '(s1, rs) := calls f s (List.filter g l) in
  let '(s2, rs2) := calls (wrap (FPred g) f) s l in
  s2 = s1 /\ List.filter (fun r => negb (is_none r)) rs2 = List.filter (fun r => negb (is_none r)) rs.
Proof.
  induction l as [|n r IH]; intros s; cbn [calls List.filter]; [auto|].
  unfold wrap at 1. destruct (g n).
  - cbn [calls]. destruct (f s n) as (s1, v). specialize (IH s1). destruct (calls f s1 (List.filter g r)) as (s2, r2).
    destruct (calls (wrap (FPred g) f) s1 r) as (s3, r3). destruct IH as (-> & E). split; auto. cbn [List.filter].
    now rewrite E.
  - specialize (IH s). destruct (calls f s (List.filter g r)) as (s2, r2).
    destruct (calls (wrap (FPred g) f) s r) as (s3, r3). destruct IH as (-> & E). auto.
Qed.
Lemma calls_ext f f' : (forall s n, f s n = f' s n) -> forall l s, calls f s l = calls f' s l.
Proof.
  intros H. induction l as [|n r IH]; intros s; cbn; auto. rewrite H. destruct (f' s n) as (s1, v). now rewrite IH.
Qed.
Lemma wrap_wrap flt f s n : wrap flt (wrap flt f) s n = wrap flt f s n.
Proof. destruct flt; cbn; auto. destruct (g n); auto. Qed.
Lemma drop_drop (flt : @filter_arg V) rs : drop flt (drop flt rs) = drop flt rs.
Proof.
  destruct flt; cbn; auto.
  - induction rs as [|r rs IH]; cbn; auto. destruct (negb (is_none r)) eqn:E; cbn; rewrite ?E, ?IH; auto.
  - induction rs as [|r rs IH]; cbn; auto. destruct (negb (same r)) eqn:E; cbn; rewrite ?E, ?IH; auto.
Qed.
End Visit.

Lemma nnodes_spec h : forall fuel t, represents h t -> height t <= fuel -> nnodes h fuel (root t) = Some (length (preorder t)).
Proof.
  induction fuel as [|fuel IH]; intros [n ts] HR Hh; [cbn in Hh; lia|].
  apply represents_unfold in HR. destruct HR as ((x & Ex & Ec) & HFa). apply height_T_le in Hh.
  cbn [root nnodes]. rewrite Ex, Ec. cbn [preorder length]. clear Ex Ec.
  induction HFa as [|t r Ht Hr IHr]; [reflexivity|]. inversion Hh as [|? ? Ha Hb]; subst. cbn [List.map flat_map].
  rewrite IH by auto. rewrite IHr by auto. rewrite app_length. f_equal. lia.
Qed.
