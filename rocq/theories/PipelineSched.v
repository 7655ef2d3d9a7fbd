(** * PipelineSched: schedule independence and stream semantics *)
From Coq Require Import List ZArith Lia Bool String.
From stdpp Require Import gmap.
From Verif Require Import PyBase PipelineModel PipelineProofs PipelineLocal PipelineSpec.
Import ListNotations.

Section Sched.
Context {D U : Type}.
Variable B : @behav D U.
Notation pstate := (@pstate D U).
Notation item := (@item D U).
Notation estate := (@estate D U).
Notation fire := (fire B).
Notation local := (local B).

Lemma app_nth_length k ys (l : list (list item)) : length (app_nth k ys l) = length l.
Proof. unfold app_nth. destruct (nth_error l k); auto. apply set_nth_length. Qed.

Lemma fire_inv i s : Inv s -> Inv (fire i s).
Proof.
  intros H. rewrite <- processStage_fire by auto. eapply same_shape_inv; [apply processStage_shape|auto].
Qed.
Lemma fire_elems i s : elems (fire i s) = elems s.
Proof.
  unfold PipelineLocal.fire. destruct (nth_error (elems s) i); auto.
  destruct (nth_error (deqs s) i) as [[|x q]|]; auto. destruct (nth_error (cycles s) i); auto.
Qed.

Definition enabled (i : nat) (s : pstate) : Prop :=
  i < length (elems s) /\ exists x q, nth_error (deqs s) i = Some (x :: q).

Lemma enabled_dec i s : {enabled i s} + {~ enabled i s}.
Proof.
  destruct (lt_dec i (length (elems s))) as [H|H].
  - destruct (nth_error (deqs s) i) as [[|x q]|] eqn:E.
    + right. intros (_ & x & q & E2). congruence.
    + left. split; eauto.
    + right. intros (_ & x & q & E2). congruence.
  - right. intros (H2 & _). auto.
Qed.

Lemma not_enabled_fire i s : ~ enabled i s -> fire i s = s.
Proof.
  intros H. unfold PipelineLocal.fire.
  destruct (nth_error (elems s) i) as [e|] eqn:E; auto.
  destruct (nth_error (deqs s) i) as [[|x q]|] eqn:E2; auto.
  destruct H. split; eauto. apply nth_error_Some; congruence.
Qed.

Lemma fire_enabled i s : Inv s -> enabled i s ->
  exists e x q c, nth_error (elems s) i = Some e /\ nth_error (deqs s) i = Some (x :: q) /\
    nth_error (cycles s) i = Some c /\
    fire i s = apply_l i e q (local e (S i =? length (elems s)) (est B (heap s) e) c x) s.
Proof.
  intros (H1 & H2) (Hi & x & q & Eq).
  destruct (nth_error (elems s) i) as [e|] eqn:E; [|apply nth_error_None in E; lia].
  destruct (nth_error (cycles s) i) as [c|] eqn:Ec; [|apply nth_error_None in Ec; lia].
  exists e, x, q, c. repeat split; auto. unfold PipelineLocal.fire. rewrite E, Eq, Ec. reflexivity.
Qed.

Lemma nth_error_app_nth_ne k m ys (l : list (list item)) : k <> m ->
  nth_error (app_nth k ys l) m = nth_error l m.
Proof. intros H. unfold app_nth. destruct (nth_error l k); auto. apply nth_error_set_nth_neq; auto. Qed.
Lemma nth_error_app_nth_eq k ys (l : list (list item)) q : nth_error l k = Some q ->
  nth_error (app_nth k ys l) k = Some (q ++ ys).
Proof.
  intros H. unfold app_nth. rewrite H. apply nth_error_set_nth_eq. apply nth_error_Some; congruence.
Qed.

Lemma app_nth_set_nth_ne k m ys v (l : list (list item)) : k <> m ->
  app_nth k ys (set_nth m v l) = set_nth m v (app_nth k ys l).
Proof.
  intros H. unfold app_nth. rewrite nth_error_set_nth_neq by auto.
  destruct (nth_error l k); auto. apply set_nth_comm; auto.
Qed.
Lemma app_nth_set_nth_eq k ys v (l : list (list item)) : k < length l ->
  app_nth k ys (set_nth k v l) = set_nth k (v ++ ys) l.
Proof.
  intros H. unfold app_nth. rewrite nth_error_set_nth_eq by auto. apply set_nth_set_nth.
Qed.
Lemma app_nth_comm k m ys zs (l : list (list item)) : k <> m ->
  app_nth k ys (app_nth m zs l) = app_nth m zs (app_nth k ys l).
Proof.
  intros H. unfold app_nth at 2. destruct (nth_error l m) as [q|] eqn:E.
  - rewrite app_nth_set_nth_ne by auto. unfold app_nth at 2. rewrite nth_error_app_nth_ne by auto.
    rewrite E. reflexivity.
  - unfold app_nth at 2. rewrite nth_error_app_nth_ne by auto. rewrite E. reflexivity.
Qed.

Lemma nth_error_eq {A} (l l' : list A) : (forall m, nth_error l m = nth_error l' m) -> l = l'.
Proof.
  revert l'; induction l as [|x l IH]; intros [|y l'] H; auto.
  - discriminate (H 0).
  - discriminate (H 0).
  - f_equal; [injection (H 0); auto|]. apply IH. intros m. apply (H (S m)).
Qed.
Lemma nth_set_nth {A} k (v : A) l m :
  nth_error (set_nth k v l) m = if Nat.eqb m k then option_map (fun _ => v) (nth_error l k) else nth_error l m.
Proof.
  destruct (Nat.eqb_spec m k) as [->|H]; [|apply nth_error_set_nth_neq; auto].
  destruct (nth_error l k) as [x|] eqn:E.
  - simpl. apply nth_error_set_nth_eq. apply nth_error_Some; congruence.
  - simpl. apply nth_error_None. rewrite set_nth_length. now apply nth_error_None.
Qed.
Lemma nth_app_nth k ys (l : list (list item)) m :
  nth_error (app_nth k ys l) m = if Nat.eqb m k then option_map (fun q => q ++ ys) (nth_error l k) else nth_error l m.
Proof.
  unfold app_nth. destruct (nth_error l k) as [q|] eqn:E.
  - rewrite nth_set_nth, E. reflexivity.
  - destruct (Nat.eqb_spec m k) as [->|]; auto.
Qed.

Lemma wr_heap_comm e e' o o' (h : gmap nat estate) : e <> e' ->
  wr_heap e o (wr_heap e' o' h) = wr_heap e' o' (wr_heap e o h).
Proof. intros H. destruct o, o'; simpl; auto. apply insert_commute; auto. Qed.
Lemma wr_nproc_comm o o' (n : gmap nat nat) : wr_nproc o (wr_nproc o' n) = wr_nproc o' (wr_nproc o n).
Proof.
  destruct o as [m|], o' as [m'|]; simpl; auto.
  destruct (Nat.eq_dec m m') as [->|H]; auto.
  rewrite !npr_insert_ne by auto. apply insert_commute; auto.
Qed.
Lemma est_wr_heap_ne e e' o h : e <> e' -> est B (wr_heap e o h) e' = est B h e'.
Proof. intros H. destruct o; simpl; auto. apply est_insert_ne; auto. Qed.

(** Firing stage [j] keeps another enabled stage [i] enabled and leaves the
    head of its queue. *)
Lemma fire_keeps_enabled i j s : Inv s -> enabled i s -> i <> j -> enabled i (fire j s).
Proof.
  intros HI Hen Hne. destruct (enabled_dec j s) as [Hj|Hj].
  2:{ rewrite not_enabled_fire; auto. }
  destruct (fire_enabled j s HI Hj) as (e & x & q & c & He & Hq & Hc & ->).
  destruct Hen as (Hi & y & qi & Ei). split; [auto|]. cbn.
  destruct (Nat.eq_dec (S j) i) as [<-|H].
  - exists y, (qi ++ l_out (local e (S j =? length (elems s)) (est B (heap s) e) c x)).
    erewrite nth_error_app_nth_eq. 2:{ rewrite nth_error_set_nth_neq by auto. exact Ei. } reflexivity.
  - exists y, qi. rewrite nth_error_app_nth_ne by auto. rewrite nth_error_set_nth_neq by auto. auto.
Qed.

Lemma NoDup_nth_error_ne (es : list nat) i j e e' : NoDup es -> nth_error es i = Some e ->
  nth_error es j = Some e' -> i <> j -> e <> e'.
Proof.
  intros HN Hi Hj Hne ->. apply Hne.
  apply (proj1 (List.NoDup_nth_error es)).
  - now apply NoDup_ListNoDup.
  - apply nth_error_Some; congruence.
  - congruence.
Qed.

(** The diamond: steps of different stages commute. *)
Lemma fire_comm i j s : Inv s -> NoDup (elems s) -> i <> j -> enabled i s -> enabled j s ->
  fire i (fire j s) = fire j (fire i s).
Proof.
  intros HI HN Hne Hi Hj.
  destruct (fire_enabled i s HI Hi) as (e & x & q & c & He & Hq & Hc & Efi).
  destruct (fire_enabled j s HI Hj) as (e' & x' & q' & c' & He' & Hq' & Hc' & Efj).
  assert (Hee : e <> e') by (eapply NoDup_nth_error_ne; eauto).
  set (Li := local e (S i =? length (elems s)) (est B (heap s) e) c x) in *.
  set (Lj := local e' (S j =? length (elems s)) (est B (heap s) e') c' x') in *.
  pose proof (proj1 HI) as Hlen.
  assert (Hli : i < length (elems s)) by (apply nth_error_Some; congruence).
  assert (Hlj : j < length (elems s)) by (apply nth_error_Some; congruence).
  (* fire i after j *)
  assert (Eij : fire i (fire j s) =
     apply_l i e (q ++ (if Nat.eqb (S j) i then l_out Lj else [])) Li (fire j s)).
  { rewrite Efj. unfold PipelineLocal.fire at 1. cbn [elems deqs cycles apply_l heap].
    rewrite He, nth_error_set_nth_neq, Hc by auto.
    rewrite est_wr_heap_ne by auto.
    destruct (Nat.eqb_spec (S j) i) as [<-|H].
    - erewrite nth_error_app_nth_eq by (rewrite nth_error_set_nth_neq by auto; exact Hq). reflexivity.
    - rewrite nth_error_app_nth_ne, nth_error_set_nth_neq, Hq by auto. rewrite app_nil_r. reflexivity. }
  assert (Eji : fire j (fire i s) =
     apply_l j e' (q' ++ (if Nat.eqb (S i) j then l_out Li else [])) Lj (fire i s)).
  { rewrite Efi. unfold PipelineLocal.fire at 1. cbn [elems deqs cycles apply_l heap].
    rewrite He', nth_error_set_nth_neq, Hc' by auto.
    rewrite est_wr_heap_ne by auto.
    destruct (Nat.eqb_spec (S i) j) as [<-|H].
    - erewrite nth_error_app_nth_eq by (rewrite nth_error_set_nth_neq by auto; exact Hq'). reflexivity.
    - rewrite nth_error_app_nth_ne, nth_error_set_nth_neq, Hq' by auto. rewrite app_nil_r. reflexivity. }
  rewrite Eij, Eji, Efi, Efj. clearbody Li Lj. clear Eij Eji Efi Efj.
  apply pstate_eq; cbn [apply_l elems cycles deqs heap nproc]; auto.
  - apply set_nth_comm; auto.
  - apply nth_error_eq. intros m. rewrite !nth_app_nth, !nth_set_nth, !nth_app_nth, !nth_set_nth.
    repeat match goal with |- context [Nat.eqb ?a ?b] => destruct (Nat.eqb_spec a b); try subst; try lia end;
    rewrite ?Hq, ?Hq'; cbn [option_map]; rewrite ?app_nil_r, ?app_assoc; auto.
  - apply wr_heap_comm; auto.
  - apply wr_nproc_comm.
Qed.

(** ** Schedules of steps *)
Fixpoint fires (s : pstate) (l : list nat) : pstate :=
  match l with [] => s | i :: r => fires (fire i s) r end.

Lemma fires_inv s l : Inv s -> Inv (fires s l).
Proof. revert s; induction l as [|i l IH]; intros s H; cbn; auto. apply IH, fire_inv, H. Qed.
Lemma fires_elems s l : elems (fires s l) = elems s.
Proof. revert s; induction l as [|i l IH]; intros s; cbn; auto. rewrite IH. apply fire_elems. Qed.

Lemma drained_not_enabled s i : drained s -> ~ enabled i s.
Proof. intros H (Hi & x & q & E). rewrite (H i Hi) in E. discriminate. Qed.

(** if stage [i] is enabled and the schedule drains, some occurrence of [i]
    can be moved to the front *)
Lemma pull_front l : forall i s, Inv s -> NoDup (elems s) -> enabled i s -> drained (fires s l) ->
  exists l', length l' < length l /\ fires s l = fires (fire i s) l'.
Proof.
  induction l as [|j l IH]; intros i s HI HN Hen Hd.
  - exfalso. eapply drained_not_enabled; eauto.
  - cbn in Hd. destruct (Nat.eq_dec i j) as [<-|Hne].
    + exists l. simpl; split; [lia|reflexivity].
    + destruct (enabled_dec j s) as [Hj|Hj].
      * destruct (IH i (fire j s)) as (l' & Hl & E); auto.
        { apply fire_inv; auto. }
        { rewrite fire_elems; auto. }
        { apply fire_keeps_enabled; auto. }
        exists (j :: l'). simpl; split; [lia|]. cbn.
        rewrite E. rewrite fire_comm by auto. reflexivity.
      * rewrite not_enabled_fire in Hd by auto.
        destruct (IH i s HI HN Hen Hd) as (l' & Hl & E).
        exists l'. simpl; split; [lia|]. cbn. rewrite (not_enabled_fire j s) by auto. exact E.
Qed.

Lemma fires_determinate : forall l1 l2 s, Inv s -> NoDup (elems s) ->
  drained (fires s l1) -> drained (fires s l2) -> fires s l1 = fires s l2.
Proof.
  induction l1 as [|i l1 IH]; intros l2 s HI HN H1 H2.
  - cbn in H1. clear H2. cbn. induction l2 as [|j l2 IH2]; auto.
    cbn. rewrite not_enabled_fire; auto. apply drained_not_enabled; auto.
  - cbn in H1. destruct (enabled_dec i s) as [Hi|Hi].
    + destruct (pull_front l2 i s HI HN Hi H2) as (l' & _ & E). rewrite E in *. cbn.
      apply IH; auto. { apply fire_inv; auto. } { rewrite fire_elems; auto. }
    + cbn. rewrite not_enabled_fire in * by auto. apply IH; auto.
Qed.

(** ** Feeds and extractions *)
Definition feed_s (x : item) (s : pstate) : pstate := with_deqs s (app_nth 0 [x] (deqs s)).
Fixpoint feeds (xs : list item) (s : pstate) : pstate :=
  match xs with [] => s | x :: r => feeds r (feed_s x s) end.

Lemma feed_feed_s x s : Inv s -> feed x s = (feed_s x s, Ok tt).
Proof.
  intros (H1 & _). unfold feed, feed_s, app_nth.
  destruct (nth_error (deqs s) 0) as [q|] eqn:E; [|apply nth_error_None in E; lia].
  change 0%Z with (Z.of_nat 0). rewrite (upd_deq_nat _ _ _ _ E). reflexivity.
Qed.
Lemma feed_s_inv x s : Inv s -> Inv (feed_s x s).
Proof. intros (H1 & H2). split; cbn; rewrite ?app_nth_length; auto. Qed.

Lemma feed_enabled i x s : enabled i s -> enabled i (feed_s x s).
Proof.
  intros (H & y & q & E). split; auto. cbn. destruct (Nat.eq_dec 0 i) as [<-|Hne].
  - eexists _, _. erewrite nth_error_app_nth_eq by exact E. reflexivity.
  - rewrite nth_error_app_nth_ne by auto. eauto.
Qed.

Lemma fire_feed i x s : Inv s -> enabled i s -> fire i (feed_s x s) = feed_s x (fire i s).
Proof.
  intros HI Hi. destruct (fire_enabled i s HI Hi) as (e & y & q & c & He & Hq & Hc & ->).
  unfold PipelineLocal.fire. cbn [elems deqs cycles feed_s with_deqs heap]. rewrite He, Hc.
  set (L := local _ _ _ _ _).
  destruct (Nat.eq_dec 0 i) as [<-|Hne].
  - erewrite nth_error_app_nth_eq by exact Hq. cbn [app].
    apply pstate_eq; cbn [apply_l elems cycles deqs heap nproc feed_s with_deqs]; auto.
    unfold app_nth at 2. rewrite Hq. rewrite set_nth_set_nth.
    rewrite <- app_nth_comm by lia.
    rewrite app_nth_set_nth_eq by (apply nth_error_Some; congruence). rewrite app_assoc. reflexivity.
  - rewrite nth_error_app_nth_ne, Hq by auto.
    apply pstate_eq; cbn [apply_l elems cycles deqs heap nproc feed_s with_deqs]; auto.
    rewrite <- app_nth_set_nth_ne by auto. apply app_nth_comm; lia.
Qed.

Lemma feeds_inv xs s : Inv s -> Inv (feeds xs s).
Proof. revert s; induction xs as [|x xs IH]; intros s H; cbn; auto. apply IH, feed_s_inv, H. Qed.
Lemma feeds_elems xs s : elems (feeds xs s) = elems s.
Proof. revert s; induction xs as [|x xs IH]; intros s; cbn; auto. rewrite IH. reflexivity. Qed.
Lemma fire_feeds i xs s : Inv s -> enabled i s -> fire i (feeds xs s) = feeds xs (fire i s).
Proof.
  revert s; induction xs as [|x xs IH]; intros s H He; cbn; auto.
  rewrite IH; [|now apply feed_s_inv|now apply feed_enabled]. rewrite fire_feed; auto.
Qed.

(** put items back at the front of the output queue *)
Definition put_out (xs : list item) (s : pstate) : pstate :=
  with_deqs s (match nth_error (deqs s) (length (elems s)) with
               | Some q => set_nth (length (elems s)) (xs ++ q) (deqs s)
               | None => deqs s
               end).

Lemma put_out_inv xs s : Inv s -> Inv (put_out xs s).
Proof.
  intros (H1 & H2). split; cbn; auto. destruct (nth_error _ _); auto. now rewrite set_nth_length.
Qed.
Lemma put_out_nil s : put_out [] s = s.
Proof.
  unfold put_out. destruct s as [es cs qs h n]; cbn. destruct (nth_error qs (length es)) eqn:E; auto.
  unfold with_deqs; cbn. now rewrite (set_nth_same _ l).
Qed.
Lemma put_out_app xs ys s : Inv s -> put_out xs (put_out ys s) = put_out (xs ++ ys) s.
Proof.
  intros (H1 & H2). unfold put_out. cbn [elems with_deqs deqs].
  destruct (nth_error (deqs s) (length (elems s))) as [q|] eqn:E; [|apply nth_error_None in E; lia].
  rewrite nth_error_set_nth_eq by lia. unfold with_deqs; cbn. rewrite set_nth_set_nth, app_assoc. reflexivity.
Qed.

Lemma set_nth_app_nth_ne k m ys v (l : list (list item)) : k <> m ->
  set_nth m v (app_nth k ys l) = app_nth k ys (set_nth m v l).
Proof. intros. symmetry. now apply app_nth_set_nth_ne. Qed.

Lemma fire_put_out i xs s : Inv s -> fire i (put_out xs s) = put_out xs (fire i s).
Proof.
  intros HI. destruct (enabled_dec i s) as [Hi|Hi].
  - destruct (fire_enabled i s HI Hi) as (e & y & q & c & He & Hq & Hc & ->).
    assert (Li : i < length (elems s)) by (apply nth_error_Some; congruence).
    pose proof (proj1 HI) as Hl.
    destruct (nth_error (deqs s) (length (elems s))) as [qo|] eqn:Eo; [|apply nth_error_None in Eo; lia].
    unfold PipelineLocal.fire, put_out. cbn [elems deqs cycles with_deqs heap apply_l]. rewrite He, Hc, Eo.
    rewrite nth_error_set_nth_neq, Hq by lia.
    set (L := local _ _ _ _ _).
    apply pstate_eq; cbn [apply_l elems cycles deqs heap nproc with_deqs]; auto.
    destruct (Nat.eq_dec (S i) (length (elems s))) as [Hl2|Hl2].
    + rewrite <- Hl2 in *.
      erewrite nth_error_app_nth_eq by (rewrite nth_error_set_nth_neq by lia; exact Eo).
      rewrite (set_nth_comm i) by lia.
      rewrite app_nth_set_nth_eq by (rewrite set_nth_length; lia).
      unfold app_nth. rewrite nth_error_set_nth_neq, Eo by lia. rewrite set_nth_set_nth, app_assoc. reflexivity.
    + rewrite nth_error_app_nth_ne, nth_error_set_nth_neq, Eo by lia.
      rewrite (set_nth_comm i) by lia. rewrite app_nth_set_nth_ne by lia. reflexivity.
  - rewrite (not_enabled_fire i s) by auto. rewrite not_enabled_fire; auto.
    intros (Hl & y & q & E). apply Hi. cbn in *. split; auto.
    destruct (nth_error (deqs s) (length (elems s))) as [qo|] eqn:Eo; [|eauto].
    rewrite nth_error_set_nth_neq in E by lia. eauto.
Qed.

Lemma fires_put_out xs l s : Inv s -> fires (put_out xs s) l = put_out xs (fires s l).
Proof.
  revert s; induction l as [|i l IH]; intros s H; cbn; auto.
  rewrite fire_put_out by auto. apply IH. now apply fire_inv.
Qed.

Lemma feed_put_out x xs s : Inv s -> feed_s x (put_out xs s) = put_out xs (feed_s x s).
Proof.
  intros (H1 & H2). unfold feed_s, put_out. cbn [elems deqs with_deqs].
  destruct (nth_error (deqs s) (length (elems s))) as [qo|] eqn:Eo; [|apply nth_error_None in Eo; lia].
  rewrite nth_app_nth, Eo.
  destruct (Nat.eqb_spec (length (elems s)) 0) as [E0|E0]; unfold with_deqs; cbn [elems cycles deqs heap nproc];
    [rewrite E0 in *; rewrite Eo; cbn [option_map]|]; f_equal;
  apply nth_error_eq; intros m; repeat (rewrite nth_app_nth || rewrite nth_set_nth);
  repeat match goal with |- context [Nat.eqb ?a ?b] => destruct (Nat.eqb_spec a b); try subst; try lia end;
  rewrite ?Eo; cbn [option_map]; rewrite ?app_assoc; auto.
Qed.
Lemma feeds_put_out ys xs s : Inv s -> feeds ys (put_out xs s) = put_out xs (feeds ys s).
Proof.
  revert s; induction ys as [|y ys IH]; intros s H; cbn; auto.
  rewrite feed_put_out by auto. apply IH. now apply feed_s_inv.
Qed.

Lemma py_index_last n : py_index (S n) (-1) = Some n.
Proof.
  unfold py_index. cbn [Z.leb]. replace (0 <=? -1)%Z with false by reflexivity.
  destruct (Z.leb_spec 0 (-1 + Z.of_nat (S n))); [|lia]. f_equal. lia.
Qed.

Lemma extract_spec s : Inv s ->
  (exists x s0, extract B 0 false false s = (s0, Ok (XOne x)) /\ Inv s0 /\ elems s0 = elems s /\ s = put_out [x] s0)
  \/ extract B 0 false false s = (s, Raise IndexError).
Proof.
  intros HI. pose proof HI as (H1 & H2). unfold extract. unfold py_get, py_set. rewrite H1, py_index_last.
  destruct (nth_error (deqs s) (length (elems s))) as [[|x q]|] eqn:E; auto.
  left. exists x, (with_deqs s (set_nth (length (elems s)) q (deqs s))).
  assert (HI0 : Inv (with_deqs s (set_nth (length (elems s)) q (deqs s)))).
  { split; cbn; auto. now rewrite set_nth_length. }
  repeat split; auto; try apply HI0.
  unfold put_out. cbn. rewrite nth_error_set_nth_eq by lia.
  destruct s as [es cs qs h n]; unfold with_deqs; cbn in *. f_equal.
  rewrite set_nth_set_nth. symmetry. apply set_nth_same. exact E.
Qed.

Lemma put_out_elems xs s : elems (put_out xs s) = elems s.
Proof. reflexivity. Qed.

(** every client schedule is equivalent to feeding everything first, then
    firing stages, with the extracted items still in the output queue *)
Lemma normalise acts : forall s, Inv s ->
  exists l, put_out (snd (run_acts B s acts)) (fst (run_acts B s acts)) = fires (feeds (fed acts) s) l
   /\ Inv (fst (run_acts B s acts)) /\ elems (fst (run_acts B s acts)) = elems s.
Proof.
  induction acts as [|a acts IH]; intros s HI.
  - exists []. cbn. split; [apply put_out_nil|auto].
  - cbn [run_acts]. destruct a as [x|i|].
    + cbn [do_act]. rewrite feed_feed_s by auto. cbn [fst].
      destruct (IH (feed_s x s)) as (l & E & HI' & Ee); [now apply feed_s_inv|].
      destruct (run_acts B (feed_s x s) acts) as [s2 x2]. cbn in *.
      exists l. repeat split; auto; apply HI'.
    + cbn [do_act]. rewrite processStage_fire by auto.
      destruct (IH (fire i s)) as (l & E & HI' & Ee); [now apply fire_inv|].
      destruct (run_acts B (fire i s) acts) as [s2 x2]. cbn in *.
      rewrite fire_elems in Ee.
      destruct (enabled_dec i s) as [Hi|Hi].
      * exists (i :: l). cbn. rewrite fire_feeds by auto. split; auto.
      * exists l. rewrite not_enabled_fire in * by auto. auto.
    + cbn [do_act]. destruct (extract_spec s HI) as [(x & s0 & Ex & HI0 & Ee0 & Es)|Ex]; rewrite Ex.
      * destruct (IH s0 HI0) as (l & E & HI' & Ee).
        destruct (run_acts B s0 acts) as [s2 x2]. cbn in *.
        exists l. split; [|split; [auto|congruence]].
        rewrite Es, feeds_put_out by auto.
        rewrite fires_put_out by (now apply feeds_inv). rewrite <- E.
        rewrite put_out_app by auto. reflexivity.
      * destruct (IH s HI) as (l & E & HI' & Ee).
        destruct (run_acts B s acts) as [s2 x2]. cbn in *. exists l. auto.
Qed.

Lemma put_out_drained xs s : drained s <-> drained (put_out xs s).
Proof.
  unfold drained, put_out. cbn. split; intros H i Hi; specialize (H i Hi).
  - destruct (nth_error (deqs s) (length (elems s))) eqn:E; auto. rewrite nth_error_set_nth_neq by lia. auto.
  - destruct (nth_error (deqs s) (length (elems s))) eqn:E; auto. rewrite nth_error_set_nth_neq in H by lia. auto.
Qed.

Lemma output_put_out xs s : Inv s -> output (put_out xs s) = xs ++ output s.
Proof.
  intros (H1 & H2). unfold output.
  destruct (nth_error (deqs s) (length (elems s))) as [q|] eqn:E; [|apply nth_error_None in E; lia].
  unfold put_out. cbn. rewrite E.
  assert (Hl : forall (l : list (list item)) n v, length l = S n -> nth_error l n = Some v -> List.last l [] = v).
  { clear. induction l as [|a l IH]; intros n v H Hn; [discriminate|].
    destruct l as [|b l].
    - simpl in H. assert (n = 0) by lia. subst. simpl in *. congruence.
    - destruct n as [|n]; [simpl in H; lia|]. simpl in Hn.
      change (List.last (b :: l) [] = v). apply (IH n); auto. }
  rewrite (Hl (deqs s) (length (elems s)) q) by auto.
  apply (Hl _ (length (elems s))).
  - rewrite set_nth_length; auto.
  - apply nth_error_set_nth_eq. lia.
Qed.

Lemma put_out_fields xs s : heap (put_out xs s) = heap s /\ nproc (put_out xs s) = nproc s
  /\ cycles (put_out xs s) = cycles s.
Proof. repeat split. Qed.

(** ** Theorem: schedule independence *)
Lemma schedule_independent s acts1 acts2 : Inv s -> NoDup (elems s) ->
  fed acts1 = fed acts2 ->
  drained (fst (run_acts B s acts1)) -> drained (fst (run_acts B s acts2)) ->
  let '(s1, x1) := run_acts B s acts1 in let '(s2, x2) := run_acts B s acts2 in
  x1 ++ output s1 = x2 ++ output s2 /\ heap s1 = heap s2 /\ cycles s1 = cycles s2 /\ nproc s1 = nproc s2.
Proof.
  intros HI HN Hf H1 H2.
  destruct (normalise acts1 s HI) as (l1 & E1 & I1 & Ee1).
  destruct (normalise acts2 s HI) as (l2 & E2 & I2 & Ee2).
  destruct (run_acts B s acts1) as [s1 x1]. destruct (run_acts B s acts2) as [s2 x2]. cbn in *.
  rewrite Hf in E1.
  assert (E : put_out x1 s1 = put_out x2 s2).
  { rewrite E1, E2. apply fires_determinate.
    - now apply feeds_inv.
    - now rewrite feeds_elems.
    - rewrite <- E1. now apply put_out_drained.
    - rewrite <- E2. now apply put_out_drained. }
  split; [|split; [|split]].
  - rewrite <- !output_put_out by auto. now rewrite E.
  - change (heap (put_out x1 s1) = heap (put_out x2 s2)). now rewrite E.
  - change (cycles (put_out x1 s1) = cycles (put_out x2 s2)). now rewrite E.
  - change (nproc (put_out x1 s1) = nproc (put_out x2 s2)). now rewrite E.
Qed.

(** ** Stream semantics *)

Lemma map_est_ext es (h h' : gmap nat estate) :
  (forall e, In e es -> e_u (est B h' e) = e_u (est B h e)) ->
  List.map (fun e => e_u (est B h' e)) es = List.map (fun e => e_u (est B h e)) es.
Proof. intros H. apply map_ext_in. auto. Qed.

Lemma app_nth_cons k ys q (l : list (list item)) : app_nth (S k) ys (q :: l) = q :: app_nth k ys l.
Proof. unfold app_nth. change (nth_error (q :: l) (S k)) with (nth_error l k). destruct (nth_error l k); reflexivity. Qed.

Lemma flow_fire : forall es i h h' dqs inc e x q u' out,
  length dqs = S (length es) ->
  NoDup es -> nth_error es i = Some e -> nth_error dqs i = Some (x :: q) ->
  stage_in B e (S i =? length es) (e_u (est B h e)) x = (u', out) ->
  e_u (est B h' e) = u' -> (forall e', e' <> e -> est B h' e' = est B h e') ->
  flow B es (List.map (fun e => e_u (est B h' e)) es) (app_nth (S i) out (set_nth i q dqs)) inc =
  flow B es (List.map (fun e => e_u (est B h e)) es) dqs inc.
Proof.
  induction es as [|e0 es IH]; intros i h h' dqs inc e x q u' out Hlen HN He Hq Hst Hu Hoth.
  - destruct i; discriminate.
  - destruct dqs as [|q0 dqs]; [discriminate|].
    apply NoDup_cons in HN as [Hnin HN].
    destruct i as [|i].
    + simpl in He, Hq. injection He as ->. injection Hq as ->.
      destruct dqs as [|q1 dqs]; [discriminate|].
      cbn [List.map]. rewrite Hu.
      assert (Hl : (1 =? length (e :: es)) = match es with [] => true | _ => false end) by (destruct es; reflexivity).
      rewrite Hl in Hst.
      rewrite (map_est_ext es h h').
      2:{ intros e' Hin. rewrite Hoth; auto. intros ->. apply Hnin. now apply elem_of_list_In. }
      unfold app_nth. cbn [set_nth nth_error].
      cbn [flow app]. cbn [stage_run]. rewrite Hst.
      destruct (stage_run B e (match es with [] => true | _ => false end) u' (q ++ inc)) as [u2 o2].
      destruct es as [|e1 es]; cbn [flow List.map]; now rewrite <- app_assoc.
    + simpl in He, Hq. cbn [List.map set_nth].
      assert (Hne : e <> e0).
      { intros ->. apply Hnin. apply elem_of_list_In. eapply nth_error_In; eauto. }
      rewrite (Hoth e0) by congruence.
      assert (Ha : app_nth (S (S i)) out (q0 :: set_nth i q dqs) = q0 :: app_nth (S i) out (set_nth i q dqs)).
      { apply app_nth_cons. }
      rewrite Ha. cbn [flow].
      destruct (stage_run B e0 _ _ (q0 ++ inc)) as [u0 o0].
      erewrite IH; eauto.
Qed.

(** good states: everything queued is well behaved and no accumulator is active *)
Definition good (s : pstate) : Prop :=
  Inv s /\ NoDup (elems s) /\ (forall e, In e (elems s) -> ok_elem B e) /\ no_acc B s /\
  (forall i q x, i < length (elems s) -> nth_error (deqs s) i = Some q -> In x q -> ok_item x).

Lemma local_ok e last st c x : ok_elem B e -> e_accs st = [] -> ok_item x ->
  let L := local e last st c x in
  let '(u', out) := stage_in B e last (e_u st) x in
  l_pre L = [] /\ l_out L = out /\
  (match l_st L with Some st' => e_u st' = u' /\ e_accs st' = [] | None => u' = e_u st end) /\
  (forall y, In y out -> ok_item y).
Proof.
  intros Hok Ha Hx. cbv zeta. destruct x as [d|m].
  - destruct (Hok (e_u st) d) as (Hck & Hrs & Hp). unfold PipelineLocal.local, stage_in.
    rewrite Hck. cbn [negb]. unfold cur_process, cur_interact. rewrite Ha. cbn [lift r_out r_st r_resave e_accs e_u].
    rewrite Hrs. rewrite Ha.
    destruct (p_out (b_process B e (e_u st) d)) as [[y|]|ex]; [| |contradiction].
    + cbn. repeat split; auto. intros z [<-|[]]; auto.
    + destruct Hp as (Hrs2 & Hp2). cbn [lift r_out r_st r_resave e_accs e_u]. rewrite Hrs2.
      destruct (p_out (b_interact B e (p_u (b_process B e (e_u st) d)) d)) as [[y|]|ex]; [| |contradiction];
        cbn; repeat split; auto.
      * intros z [<-|[]]; auto.
      * intros z [].
  - unfold PipelineLocal.local, stage_in, targets, isTarget, to_class, deliver, msg_effect.
    cbn in Hx. unfold quiet_msg in Hx.
    destruct (m_target m) as [t|k].
    + destruct (Nat.eqb e t).
      * destruct (m_kind m) as [at_|me|n a f|f]; try contradiction; cbn.
        -- repeat split; auto. intros z [].
        -- specialize (Hx e (e_u st)). destruct (f e (e_u st)) as [u' xe]. cbn in Hx. subst xe. cbn. repeat split; auto. intros z [].
      * cbn. repeat split; auto. intros z Hz. destruct last; cbn in Hz; [contradiction|].
        destruct Hz as [<-|[]]. exact Hx.
    + destruct (Nat.eqb (b_class B e) k).
      * destruct (m_kind m) as [at_|me|n a f|f] eqn:Ek; try contradiction; cbn.
        -- destruct last; cbn; repeat split; auto; intros z Hz; cbn in Hz; [contradiction|].
           destruct Hz as [<-|[]]. cbn. unfold quiet_msg. now rewrite Ek.
        -- pose proof (Hx e (e_u st)) as Hxe. destruct (f e (e_u st)) as [u' xe] eqn:Ef. cbn in Hxe. subst xe.
           destruct last; cbn; repeat split; auto; intros z Hz; cbn in Hz; [contradiction|].
           destruct Hz as [<-|[]]. cbn. unfold quiet_msg. now rewrite Ek.
      * cbn. repeat split; auto. intros z Hz. destruct last; cbn in Hz; [contradiction|].
        destruct Hz as [<-|[]]. exact Hx.
Qed.

Definition flow_s (s : pstate) (inc : list item) :=
  flow B (elems s) (List.map (attrs_of B s) (elems s)) (deqs s) inc.

Lemma fire_good i s inc : good s -> good (fire i s) /\ flow_s (fire i s) inc = flow_s s inc.
Proof.
  intros (HI & HN & Hoke & Hna & Hq). destruct (enabled_dec i s) as [Hi|Hi].
  2:{ rewrite not_enabled_fire by auto. split; auto. unfold good. split_and!; auto. }
  destruct (fire_enabled i s HI Hi) as (e & x & q & c & He & Hqi & Hc & Ef).
  assert (Hin : In e (elems s)) by (eapply nth_error_In; eauto).
  assert (Li : i < length (elems s)) by (apply nth_error_Some; congruence).
  assert (Hx : ok_item x) by (eapply Hq; eauto; left; auto).
  pose proof (local_ok e (S i =? length (elems s)) (est B (heap s) e) c x (Hoke e Hin) (Hna e Hin) Hx) as HL.
  cbv zeta in HL.
  destruct (stage_in B e (S i =? length (elems s)) (e_u (est B (heap s) e)) x) as [u' out] eqn:Est.
  destruct HL as (Hpre & Hout & Hst & Hoko).
  pose proof (fire_inv i s HI) as HIf. rewrite Ef in *. clear Ef.
  set (L := local e (S i =? length (elems s)) (est B (heap s) e) c x) in *.
  assert (Hself : e_u (est B (wr_heap e (l_st L) (heap s)) e) = u' /\
                  e_accs (est B (wr_heap e (l_st L) (heap s)) e) = []).
  { destruct (l_st L) as [st'|]; cbn [wr_heap].
    - rewrite est_insert. exact Hst.
    - split; auto. }
  destruct Hself as [Hs1 Hs2]. split.
  - split; [exact HIf|]. split; [exact HN|]. split; [exact Hoke|]. split.
    + intros e' Hin'. cbn in *. destruct (Nat.eq_dec e e') as [<-|Hne]; auto.
      rewrite est_wr_heap_ne by auto. auto.
    + intros j qj y Hj Hqj Hy. cbn in Hqj, Hj. rewrite Hpre, Hout in Hqj. cbn in Hqj.
      rewrite nth_app_nth in Hqj.
      destruct (Nat.eqb_spec j (S i)) as [->|Hn1].
      * rewrite nth_error_set_nth_neq in Hqj by lia.
        destruct (nth_error (deqs s) (S i)) as [q1|] eqn:E1; [|discriminate].
        cbn in Hqj. injection Hqj as <-. apply in_app_or in Hy as [Hy|Hy]; auto.
        eapply Hq; eauto.
      * rewrite nth_set_nth in Hqj. destruct (Nat.eqb_spec j i) as [->|Hn2].
        -- rewrite Hqi in Hqj. cbn in Hqj. injection Hqj as <-. eapply Hq; eauto. now right.
        -- eapply Hq; eauto.
  - unfold flow_s, attrs_of. cbn [apply_l elems heap deqs]. rewrite Hpre, Hout. cbn [app].
    eapply flow_fire; eauto.
    + apply HI.
    + intros e' Hne. apply est_wr_heap_ne; auto.
Qed.

Lemma fires_good l s inc : good s -> good (fires s l) /\ flow_s (fires s l) inc = flow_s s inc.
Proof.
  revert s; induction l as [|i l IH]; intros s H; cbn; auto.
  destruct (fire_good i s inc H) as (H1 & E1). destruct (IH _ H1) as (H2 & E2). split; auto. congruence.
Qed.

Lemma feeds_good xs : forall s inc, good s -> (forall x, In x xs -> ok_item x) ->
  good (feeds xs s) /\ flow_s (feeds xs s) inc = flow_s s (xs ++ inc).
Proof.
  induction xs as [|x xs IH]; intros s inc H Hx; cbn; auto.
  assert (Hg : good (feed_s x s)).
  { destruct H as (HI & HN & Hoke & Hna & Hq). unfold good. split_and!; auto.
    - now apply feed_s_inv.
    - intros i q y Hi Hqi Hy. cbn in Hqi, Hi. rewrite nth_app_nth in Hqi.
      destruct (Nat.eqb_spec i 0) as [->|Hn].
      + destruct (nth_error (deqs s) 0) as [q0|] eqn:E0; [|discriminate]. cbn in Hqi. injection Hqi as <-.
        apply in_app_or in Hy as [Hy|[<-|[]]]; [eapply Hq; eauto|]. apply Hx. now left.
      + eapply Hq; eauto. }
  destruct (IH (feed_s x s) inc Hg) as (G & E). { intros y Hy. apply Hx. now right. }
  split; auto. rewrite E. unfold flow_s, feed_s, attrs_of. cbn [elems heap deqs with_deqs].
  destruct H as ((H1 & _) & _).
  destruct (deqs s) as [|q dqs] eqn:Ed; [discriminate|]. cbn [app_nth nth_error set_nth].
  unfold app_nth; cbn [nth_error set_nth].
  destruct (elems s) as [|e es]; cbn [flow List.map]; now rewrite <- app_assoc.
Qed.

Lemma flow_drained_aux : forall es h dqs, length dqs = S (length es) ->
  (forall i, i < length es -> nth_error dqs i = Some []) ->
  flow B es (List.map (fun e => e_u (est B h e)) es) dqs [] =
  (List.map (fun e => e_u (est B h e)) es, List.last dqs []).
Proof.
  induction es as [|e es IH]; intros h dqs Hl Hd.
  - destruct dqs as [|q [|]]; try discriminate. cbn. now rewrite app_nil_r.
  - destruct dqs as [|q dqs]; [discriminate|].
    assert (q = []) as -> by (specialize (Hd 0); simpl in Hd; specialize (Hd ltac:(lia)); congruence).
    cbn [flow List.map app stage_run]. rewrite IH.
    + destruct dqs; [discriminate|reflexivity].
    + simpl in Hl; lia.
    + intros i Hi. apply (Hd (S i)). simpl; lia.
Qed.

Lemma pipeline_stream s acts : good s -> (forall x, In x (fed acts) -> ok_item x) ->
  drained (fst (run_acts B s acts)) ->
  let '(s', ex) := run_acts B s acts in
  (List.map (attrs_of B s') (elems s), ex ++ output s') =
  flow B (elems s) (List.map (attrs_of B s) (elems s)) (deqs s) (fed acts).
Proof.
  intros Hg Hx Hd. pose proof Hg as (HI & _).
  destruct (normalise acts s HI) as (l & E & HI' & Ee).
  destruct (run_acts B s acts) as [s' ex]. cbn in *.
  destruct (feeds_good (fed acts) s [] Hg Hx) as (G1 & E1).
  destruct (fires_good l (feeds (fed acts) s) [] G1) as (G2 & E2).
  rewrite app_nil_r in E1. unfold flow_s in E1 at 2. rewrite <- E1, <- E2, <- E.
  unfold flow_s. rewrite put_out_elems, Ee.
  assert (Hp := put_out_inv ex s' HI').
  assert (Hd' : drained (put_out ex s')) by (now apply put_out_drained).
  change (List.map (attrs_of B (put_out ex s')) (elems s)) with (List.map (fun e => e_u (est B (heap (put_out ex s')) e)) (elems s)).
  rewrite flow_drained_aux.
  - rewrite <- output_put_out by auto. reflexivity.
  - rewrite <- Ee. apply Hp.
  - intros i Hi. apply Hd'. cbn. now rewrite Ee.
Qed.

End Sched.
