(** * PipelineProofs: lemmas about PipelineModel *)
From Coq Require Import List ZArith Lia Bool String.
From stdpp Require Import gmap.
From Verif Require Import PyBase PipelineModel.
Import ListNotations.

Section Proofs.
Context {D U : Type}.
Variable B : @behav D U.
Notation pstate := (@pstate D U).
Notation item := (@item D U).
Notation estate := (@estate D U).

(** ** Shape *)
Definition Inv (s : pstate) : Prop :=
  length (deqs s) = S (length (elems s)) /\ length (cycles s) = length (elems s).

(** same stages: the element list and the number of queues/counters agree *)
Definition same_shape (s s' : pstate) : Prop :=
  elems s' = elems s /\ length (deqs s') = length (deqs s) /\ length (cycles s') = length (cycles s).

Lemma same_shape_refl s : same_shape s s.
Proof. repeat split. Qed.
Lemma same_shape_trans s1 s2 s3 : same_shape s1 s2 -> same_shape s2 s3 -> same_shape s1 s3.
Proof. unfold same_shape; intros (A1 & A2 & A3) (B1 & B2 & B3); repeat split; congruence. Qed.
Lemma same_shape_inv s s' : same_shape s s' -> Inv s -> Inv s'.
Proof. unfold same_shape, Inv; intros (A1 & A2 & A3) (B1 & B2). rewrite A1, A2, A3. auto. Qed.

Lemma upd_deq_shape i f (s s' : pstate) : upd_deq i f s = Some s' -> same_shape s s'.
Proof.
  unfold upd_deq. destruct (py_get (deqs s) i) as [q|]; [|discriminate].
  destruct (py_set (deqs s) i (f q)) as [qs|] eqn:E; [|discriminate].
  intros H; inversion H; subst. repeat split; simpl; auto.
  eapply py_set_length; eauto.
Qed.

Lemma resave_shape i ds (s s' : pstate) : resave i ds s = Some s' -> same_shape s s'.
Proof.
  unfold resave. revert s. induction ds as [|d ds IH]; intros s H; cbn in H.
  - inversion H; subst. apply same_shape_refl.
  - destruct (upd_deq i (fun q => q_append q (IData d)) s) as [s1|] eqn:E.
    + eapply same_shape_trans; [eapply upd_deq_shape; eauto | apply IH; auto].
    + exfalso. clear -H. induction ds; cbn in H; [discriminate|auto].
Qed.

Lemma run_call_shape i e r (s s' : pstate) : run_call i e r s = Some s' -> same_shape s s'.
Proof. unfold run_call. intros H. apply resave_shape in H. destruct H as (A1 & A2 & A3). repeat split; auto. Qed.

Lemma put_back_shape i d x (s : pstate) : same_shape s (fst (put_back i d x s)).
Proof.
  unfold put_back. destruct (upd_deq i _ s) as [s'|] eqn:E; simpl.
  - eapply upd_deq_shape; eauto.
  - apply same_shape_refl.
Qed.

Lemma pass_on_shape i d y (s : pstate) : same_shape s (fst (pass_on i d y s)).
Proof.
  unfold pass_on. destruct (upd_deq (i+1) _ s) as [s'|] eqn:E.
  - destruct (py_set (cycles s') i 0) as [c|] eqn:E2; simpl.
    + eapply same_shape_trans; [eapply upd_deq_shape; eauto|].
      repeat split; simpl; auto. eapply py_set_length; eauto.
    + eapply same_shape_trans; [eapply upd_deq_shape; eauto|]. apply put_back_shape.
  - apply put_back_shape.
Qed.

Lemma processStage_shape i (s : pstate) : same_shape s (fst (processStage B i s)).
Proof.
  unfold processStage.
  destruct (py_get (elems s) i) as [e|]; [|apply same_shape_refl].
  destruct (py_get (deqs s) i) as [[|x q]|]; try apply same_shape_refl.
  destruct (py_set (deqs s) i q) as [qs|] eqn:E; [|apply same_shape_refl].
  assert (H1 : same_shape s (with_deqs s qs)).
  { repeat split; simpl; auto. eapply py_set_length; eauto. }
  set (s1 := with_deqs s qs) in *. cbv zeta.
  destruct x as [d|m].
  - destruct (negb _); [exact H1|].
    destruct (run_call i e (cur_process B e (est B (heap s1) e) d) s1) as [s2|] eqn:E1.
    2:{ eapply same_shape_trans; [exact H1|]. apply put_back_shape. }
    apply run_call_shape in E1. assert (H2 := same_shape_trans _ _ _ H1 E1).
    destruct (r_out _) as [[y|]|x].
    + eapply same_shape_trans; [exact H2|]. apply pass_on_shape.
    + destruct (run_call i e (cur_interact B e (est B (heap s2) e) d) s2) as [s3|] eqn:E2.
      2:{ eapply same_shape_trans; [exact H2|]. apply put_back_shape. }
      apply run_call_shape in E2. assert (H3 := same_shape_trans _ _ _ H2 E2).
      destruct (r_out _) as [[y|]|x].
      * eapply same_shape_trans; [exact H3|]. apply pass_on_shape.
      * destruct (py_get (cycles s3) i) as [c|].
        -- destruct (py_set (cycles s3) i (S c)) as [cs|] eqn:E3.
           ++ eapply same_shape_trans; [exact H3|]. repeat split; simpl; auto. eapply py_set_length; eauto.
           ++ eapply same_shape_trans; [exact H3|]. apply put_back_shape.
        -- eapply same_shape_trans; [exact H3|]. apply put_back_shape.
      * eapply same_shape_trans; [exact H3|]. apply put_back_shape.
    + eapply same_shape_trans; [exact H2|]. apply put_back_shape.
  - destruct (isTarget B m e) as [b|].
    + destruct (deliver B m e _) as [st' xe].
      set (s2 := with_heap _ _). assert (H2 : same_shape s s2) by exact H1.
      destruct xe as [xe|]; [exact H2|].
      destruct b; [|exact H2].
      destruct (i =? _)%Z; [destruct (Nat.eqb _ 0); exact H2|].
      destruct (upd_deq (i+1) _ s2) as [s3|] eqn:E3; [|exact H2].
      eapply same_shape_trans; [exact H2|]. eapply upd_deq_shape; eauto.
    + destruct (i =? _)%Z; [destruct (Nat.eqb _ 0); exact H1|].
      destruct (upd_deq (i+1) _ s1) as [s3|] eqn:E3; [|exact H1].
      eapply same_shape_trans; [exact H1|]. eapply upd_deq_shape; eauto.
Qed.

Lemma processStage_shape' i (s s' : pstate) r : processStage B i s = (s', r) -> same_shape s s'.
Proof. intros H. generalize (processStage_shape i s). rewrite H. auto. Qed.

Lemma retry_loop_shape fuel i lim (s : pstate) acc : same_shape s (fst (retry_loop B fuel i lim s acc)).
Proof.
  revert s acc; induction fuel as [|fuel IH]; intros s acc; simpl; [apply same_shape_refl|].
  destruct (py_get (cycles s) i) as [[|c]|]; try apply same_shape_refl.
  destruct (match lim with Some l => _ | None => false end); [apply same_shape_refl|].
  destruct (processStage B i s) as [s' [r|e|]] eqn:E; apply processStage_shape' in E; simpl; auto.
  eapply same_shape_trans; [exact E|apply IH].
Qed.

Lemma drain_loop_shape fuel i lim (s : pstate) acc : same_shape s (fst (drain_loop B fuel i lim s acc)).
Proof.
  revert s acc; induction fuel as [|fuel IH]; intros s acc; simpl; [apply same_shape_refl|].
  destruct (py_get (deqs s) i) as [[|x q]|]; try apply same_shape_refl.
  destruct (processStage B i s) as [s' [r|e|]] eqn:E; apply processStage_shape' in E; simpl; auto.
  generalize (retry_loop_shape fuel i lim s' acc).
  destruct (retry_loop B fuel i lim s' acc) as [s2 [a|e|]]; simpl; intros H;
    try (eapply same_shape_trans; [exact E|exact H]).
  eapply same_shape_trans; [exact E|]. eapply same_shape_trans; [exact H|apply IH].
Qed.

Lemma stages_loop_shape fuel sts r (s : pstate) acc : same_shape s (fst (stages_loop B fuel sts r s acc)).
Proof.
  revert s acc; induction sts as [|st sts IH]; intros s acc; simpl; [apply same_shape_refl|].
  destruct (py_get (deqs s) (Z.of_nat st)) as [q|]; [|apply same_shape_refl].
  destruct r as [lim|].
  - generalize (drain_loop_shape fuel (Z.of_nat st) lim s []).
    destruct (drain_loop B fuel (Z.of_nat st) lim s []) as [s' [l|e|]]; simpl; intros H; auto.
    eapply same_shape_trans; [exact H|apply IH].
  - destruct q as [|x q]; [apply IH|].
    destruct (processStage B (Z.of_nat st) s) as [s' [c|e|]] eqn:E; apply processStage_shape' in E; simpl; auto.
    eapply same_shape_trans; [exact E|apply IH].
Qed.

Lemma processToStage_shape fuel i r (s : pstate) : same_shape s (fst (processToStage B fuel i r s)).
Proof. apply stages_loop_shape. Qed.

Lemma single_retry_shape fuel i l rf pre (s : pstate) : same_shape s (fst (single_retry B fuel i l rf pre s)).
Proof.
  revert s; induction fuel as [|fuel IH]; intros s; simpl; [apply same_shape_refl|].
  destruct (py_get (cycles s) i) as [[|c]|]; try apply same_shape_refl.
  destruct (_ && _).
  - destruct rf; [apply same_shape_refl|].
    destruct (upd_deq i _ s) eqn:E; simpl; [eapply upd_deq_shape; eauto|apply same_shape_refl].
  - destruct (processStage B i s) as [s' [r|e|]] eqn:E; apply processStage_shape' in E; simpl; auto.
    eapply same_shape_trans; [exact E|apply IH].
Qed.

Lemma single_stages_shape fuel sts l rf (s : pstate) : same_shape s (fst (single_stages B fuel sts l rf s)).
Proof.
  revert s; induction sts as [|st sts IH]; intros s; simpl; [apply same_shape_refl|].
  destruct (py_get (deqs s) (Z.of_nat st)) as [[|pre q]|]; try apply same_shape_refl.
  destruct (processStage B (Z.of_nat st) s) as [s1 [r|e|]] eqn:E; apply processStage_shape' in E; simpl; auto.
  generalize (single_retry_shape fuel (Z.of_nat st) l rf pre s1).
  destruct (single_retry B fuel (Z.of_nat st) l rf pre s1) as [s2 [r2|e|]]; simpl; intros H;
    try (eapply same_shape_trans; [exact E|exact H]).
  eapply same_shape_trans; [exact E|]. eapply same_shape_trans; [exact H|apply IH].
Qed.

Lemma with_deqs_set_shape (s : pstate) i q qs : py_set (deqs s) i q = Some qs -> same_shape s (with_deqs s qs).
Proof. intros H. repeat split; simpl; auto. eapply py_set_length; eauto. Qed.

Lemma processSingle_shape fuel x l rf (s : pstate) : same_shape s (fst (processSingle B fuel x l rf s)).
Proof.
  unfold processSingle. destruct (upd_deq 0 _ s) as [s1|] eqn:E; [|apply same_shape_refl].
  apply upd_deq_shape in E.
  generalize (single_stages_shape fuel (seq 0 (length (elems s1))) l rf s1).
  destruct (single_stages B fuel (seq 0 (length (elems s1))) l rf s1) as [s2 [r|e|]]; simpl; intros H;
    pose proof (same_shape_trans _ _ _ E H) as H2; auto.
  destruct (py_get (deqs s2) (-1)) as [[|y q]|]; auto.
  destruct (py_set (deqs s2) (-1) q) as [qs|] eqn:E2; auto.
  eapply same_shape_trans; [exact H2|]. eapply with_deqs_set_shape; eauto.
Qed.

Lemma extract_shape fuel a b (s : pstate) : same_shape s (fst (extract B fuel a b s)).
Proof.
  unfold extract.
  assert (H : forall p : pstate * res (list stage_result), same_shape s (fst p) ->
    same_shape s (fst (let '(s1, r) := p in
      match r with
      | Raise e => (s1, Raise e)
      | OutOfFuel => (s1, OutOfFuel)
      | Ok _ =>
        match py_get (deqs s1) (-1) with
        | None => (s1, Raise IndexError)
        | Some [] => (s1, Raise IndexError)
        | Some (x :: q) =>
            if a then
              match py_set (deqs s1) (-1) [] with
              | Some qs => (with_deqs s1 qs, Ok (XAll (x :: q)))
              | None => (s1, Raise IndexError)
              end
            else
              match py_set (deqs s1) (-1) q with
              | Some qs => (with_deqs s1 qs, Ok (XOne x))
              | None => (s1, Raise IndexError)
              end
        end
      end))).
  { intros [s1 r] H; simpl in H. destruct r; simpl; auto.
    destruct (py_get (deqs s1) (-1)) as [[|y q]|]; auto.
    destruct a.
    - destruct (py_set (deqs s1) (-1) []) eqn:E; simpl; auto.
      eapply same_shape_trans; [exact H|]. eapply with_deqs_set_shape; eauto.
    - destruct (py_set (deqs s1) (-1) q) eqn:E; simpl; auto.
      eapply same_shape_trans; [exact H|]. eapply with_deqs_set_shape; eauto. }
  apply H. destruct b; [apply processToStage_shape|apply same_shape_refl].
Qed.

Lemma feed_shape x (s : pstate) : same_shape s (fst (feed x s)).
Proof.
  unfold feed. destruct (upd_deq 0 _ s) eqn:E; simpl; [eapply upd_deq_shape; eauto|apply same_shape_refl].
Qed.

Lemma feedMany_shape xs (s : pstate) : same_shape s (fst (feedMany xs s)).
Proof.
  revert s; induction xs as [|x xs IH]; intros s; simpl; [apply same_shape_refl|].
  generalize (feed_shape x s). destruct (feed x s) as [s' [r|e|]]; simpl; intros H; auto.
  eapply same_shape_trans; [exact H|apply IH].
Qed.

Lemma clear_seq_shape sts (s : pstate) : same_shape s (fst (clear_seq sts s)).
Proof.
  revert s; induction sts as [|x xs IH]; intros s; simpl; [apply same_shape_refl|].
  destruct (upd_deq x _ s) eqn:E; simpl; [|apply same_shape_refl].
  eapply same_shape_trans; [eapply upd_deq_shape; eauto|apply IH].
Qed.

Lemma py_index_range len i n : py_index len i = Some n ->
  (- Z.of_nat len <= i < Z.of_nat len)%Z.
Proof.
  unfold py_index. destruct (Z.leb_spec 0 i).
  - destruct (Z.ltb_spec i (Z.of_nat len)); intros E; inversion E; lia.
  - destruct (Z.leb_spec 0 (i + Z.of_nat len)); intros E; inversion E; lia.
Qed.

Lemma py_index_some len i : (- Z.of_nat len <= i < Z.of_nat len)%Z ->
  exists n, py_index len i = Some n /\ n < len.
Proof.
  intros H. assert (exists n, py_index len i = Some n) as [n E].
  { unfold py_index. destruct (Z.leb_spec 0 i).
    - destruct (Z.ltb_spec i (Z.of_nat len)); [eauto|lia].
    - destruct (Z.leb_spec 0 (i + Z.of_nat len)); [eauto|lia]. }
  exists n; split; auto. eapply py_index_lt; eauto.
Qed.

Lemma py_pop_some {A} (l : list A) i : (- Z.of_nat (length l) <= i < Z.of_nat (length l))%Z ->
  exists x l', py_pop l i = Some (x, l') /\ S (length l') = length l.
Proof.
  intros H. destruct (py_index_some _ _ H) as (n & E & L). unfold py_pop. rewrite E.
  destruct (nth_error l n) as [x|] eqn:E2.
  - eexists _, _; split; eauto. now apply remove_at_length.
  - apply nth_error_None in E2. lia.
Qed.

Lemma py_pop_inv {A} (l : list A) i x l' : py_pop l i = Some (x, l') ->
  (- Z.of_nat (length l) <= i < Z.of_nat (length l))%Z.
Proof.
  unfold py_pop. destruct (py_index (length l) i) eqn:E; [|discriminate].
  intros _. eapply py_index_range; eauto.
Qed.

Lemma upd_deq_some i f (s : pstate) : (- Z.of_nat (length (deqs s)) <= i < Z.of_nat (length (deqs s)))%Z ->
  exists s', upd_deq i f s = Some s' /\ elems s' = elems s /\ cycles s' = cycles s
    /\ length (deqs s') = length (deqs s).
Proof.
  intros H. destruct (py_index_some _ _ H) as (n & E & L). unfold upd_deq, py_get, py_set. rewrite E.
  destruct (nth_error (deqs s) n) eqn:E2.
  - eexists; split; [reflexivity|]. simpl. now rewrite set_nth_length.
  - apply nth_error_None in E2. lia.
Qed.

Lemma removeElement_inv i k (s : pstate) : Inv s -> Inv (fst (removeElement i k s)).
Proof.
  intros (H1 & H2). unfold removeElement.
  destruct (py_pop (elems s) i) as [[e es]|] eqn:E; [|split; assumption].
  pose proof (py_pop_inv _ _ _ _ E) as R. pose proof (py_pop_length _ _ _ _ E) as L.
  cbn [deqs].
  destruct (py_pop_some (deqs s) i) as (data & qs & Eq & Lq); [lia|]. rewrite Eq.
  set (s2 := with_deqs _ qs). 
  assert (Hs : exists s3, (if k then match upd_deq i (fun q => q_extend q data) s2 with
                  | Some s3 => upd_deq i (q_rotate (length data)) s3
                  | None => None end else Some s2) = Some s3
     /\ elems s3 = es /\ cycles s3 = cycles s /\ length (deqs s3) = length qs).
  { destruct k.
    - destruct (upd_deq_some i (fun q => q_extend q data) s2) as (s3 & E3 & A1 & A2 & A3).
      { cbn. lia. }
      rewrite E3. destruct (upd_deq_some i (q_rotate (length data)) s3) as (s4 & E4 & B1 & B2 & B3).
      { rewrite A3. cbn. lia. }
      exists s4. rewrite E4, B1, B2, B3, A1, A2, A3. auto.
    - exists s2. auto. }
  destruct Hs as (s3 & -> & A1 & A2 & A3).
  destruct (py_pop_some (cycles s3) i) as (c & cs & Ec & Lc); [rewrite A2; lia|]. rewrite Ec.
  rewrite A2 in Lc. split; cbn; rewrite A1; [rewrite A3|]; lia.
Qed.

Lemma addElement_inv i e (s : pstate) : Inv s -> Inv (addElement i e s).
Proof. intros (H1 & H2). split; cbn; rewrite !py_insert_length; lia. Qed.

Lemma init_inv es h np : Inv (@init D U es h np).
Proof. split; cbn; rewrite ?app_length, !map_length; simpl; lia. Qed.

Lemma step_inv s o : Inv s -> Inv (step B s o).
Proof.
  intros H. destruct o; cbn [step].
  - now apply addElement_inv.
  - now apply removeElement_inv.
  - eapply same_shape_inv; [apply feed_shape|auto].
  - eapply same_shape_inv; [apply feedMany_shape|auto].
  - eapply same_shape_inv; [apply processStage_shape|auto].
  - eapply same_shape_inv; [apply processToStage_shape|auto].
  - eapply same_shape_inv; [apply processToStage_shape|auto].
  - eapply same_shape_inv; [apply processSingle_shape|auto].
  - eapply same_shape_inv; [apply extract_shape|auto].
  - eapply same_shape_inv; [apply clear_seq_shape|auto].
Qed.

Lemma run_inv s ops : Inv s -> Inv (run B s ops).
Proof. revert s; induction ops as [|o ops IH]; intros s H; cbn; auto. apply IH, step_inv, H. Qed.

(** ** Adding and removing stages *)

Lemma q_extend_eq (q data : list item) : q_extend q data = data ++ q.
Proof.
  unfold q_extend. rewrite <- (rev_involutive data) at 2.
  generalize (rev data) as l. intros l; revert q. induction l as [|x l IH]; intros q; simpl; auto.
  rewrite IH. unfold q_append. rewrite <- app_assoc. reflexivity.
Qed.

Lemma q_rotate_app (a b : list item) : q_rotate (length a) (a ++ b) = b ++ a.
Proof.
  unfold q_rotate. revert b; induction a as [|x a IH]; intros b; simpl.
  - now rewrite app_nil_r.
  - replace (b ++ x :: a) with ((b ++ [x]) ++ a) by now rewrite <- app_assoc.
    rewrite <- IH. rewrite app_assoc.
    change (q_rotate1 (Nat.iter (length a) q_rotate1 (x :: a ++ b)) =
            Nat.iter (length a) q_rotate1 ((a ++ b) ++ [x])).
    rewrite <- Nat.iter_succ, Nat.iter_succ_r. reflexivity.
Qed.

Lemma nth_error_skipn_add {A} n (l : list A) k : nth_error (skipn n l) k = nth_error l (n + k).
Proof. revert n; induction l as [|x l IH]; intros [|n]; simpl; auto. destruct k; auto. Qed.

Lemma nth_error_insert_at {A} n (x : A) l m : n <= length l ->
  nth_error (insert_at n x l) m =
  if m <? n then nth_error l m else if m =? n then Some x else nth_error l (m - 1).
Proof.
  intros H. unfold insert_at.
  destruct (Nat.ltb_spec m n).
  - rewrite nth_error_app1 by (rewrite firstn_length; lia).
    rewrite <- (firstn_skipn n l) at 2. rewrite nth_error_app1; auto. rewrite firstn_length; lia.
  - rewrite nth_error_app2 by (rewrite firstn_length; lia).
    rewrite firstn_length. replace (Nat.min n (length l)) with n by lia.
    destruct (Nat.eqb_spec m n).
    + subst. now rewrite Nat.sub_diag.
    + destruct (m - n) as [|k] eqn:E; [lia|]. simpl.
      rewrite nth_error_skipn_add. f_equal. lia.
Qed.

Lemma nth_error_remove_at {A} n (l : list A) m : n < length l ->
  nth_error (remove_at n l) m = if m <? n then nth_error l m else nth_error l (S m).
Proof.
  intros H. unfold remove_at.
  destruct (Nat.ltb_spec m n).
  - rewrite nth_error_app1 by (rewrite firstn_length; lia).
    rewrite <- (firstn_skipn n l) at 2. rewrite nth_error_app1; auto. rewrite firstn_length; lia.
  - rewrite nth_error_app2 by (rewrite firstn_length; lia).
    rewrite firstn_length, nth_error_skipn_add. f_equal. lia.
Qed.

Lemma addElement_spec (i : nat) e (s : pstate) : Inv s -> i <= length (elems s) ->
  let s' := addElement (Z.of_nat i) e s in
  nth_error (elems s') i = Some e /\ nth_error (deqs s') i = Some [] /\ nth_error (cycles s') i = Some 0 /\
  (forall j, j < i -> nth_error (elems s') j = nth_error (elems s) j /\
      nth_error (deqs s') j = nth_error (deqs s) j /\ nth_error (cycles s') j = nth_error (cycles s) j) /\
  (forall j, i <= j -> nth_error (elems s') (S j) = nth_error (elems s) j /\
      nth_error (deqs s') (S j) = nth_error (deqs s) j /\ nth_error (cycles s') (S j) = nth_error (cycles s) j).
Proof.
  intros (H1 & H2) H. cbn zeta. unfold addElement; cbn [elems deqs cycles].
  unfold py_insert. rewrite !py_insert_pos_nonneg by lia.
  rewrite !nth_error_insert_at by lia.
  rewrite Nat.ltb_irrefl, Nat.eqb_refl. split; [auto|]. split; [auto|]. split; [auto|]. split.
  - intros j Hj. rewrite !nth_error_insert_at by lia.
    destruct (Nat.ltb_spec j i); [auto|lia].
  - intros j Hj. rewrite !nth_error_insert_at by lia.
    destruct (Nat.ltb_spec (S j) i); [lia|]. destruct (Nat.eqb_spec (S j) i); [lia|].
    replace (S j - 1) with j by lia. auto.
Qed.

Lemma upd_deq_nat (i : nat) f (s : pstate) q : nth_error (deqs s) i = Some q ->
  upd_deq (Z.of_nat i) f s = Some (with_deqs s (set_nth i (f q) (deqs s))).
Proof.
  intros H. unfold upd_deq. rewrite py_get_nat, H. rewrite py_set_nat; auto.
  apply nth_error_Some; congruence.
Qed.

Lemma removeElement_spec (i : nat) keep (s : pstate) e q qn : Inv s ->
  nth_error (elems s) i = Some e -> nth_error (deqs s) i = Some q -> nth_error (deqs s) (S i) = Some qn ->
  exists s', removeElement (Z.of_nat i) keep s = (s', Ok e) /\
  heap s' = heap s /\ nproc s' = nproc s /\
  nth_error (deqs s') i = Some (if keep then qn ++ q else qn) /\
  (forall j, j < i -> nth_error (elems s') j = nth_error (elems s) j /\
      nth_error (deqs s') j = nth_error (deqs s) j /\ nth_error (cycles s') j = nth_error (cycles s) j) /\
  (forall j, i <= j -> nth_error (elems s') j = nth_error (elems s) (S j) /\
      nth_error (cycles s') j = nth_error (cycles s) (S j)) /\
  (forall j, i < j -> nth_error (deqs s') j = nth_error (deqs s) (S j)).
Proof.
  intros (H1 & H2) He Hq Hqn.
  assert (Li : i < length (elems s)) by (apply nth_error_Some; congruence).
  destruct (nth_error (cycles s) i) as [c|] eqn:Ec; [|apply nth_error_None in Ec; lia].
  unfold removeElement.
  rewrite (py_pop_nat _ _ _ He). cbn [deqs].
  rewrite (py_pop_nat _ _ _ Hq).
  set (s2 := with_deqs _ _).
  assert (Hi : nth_error (deqs s2) i = Some qn).
  { subst s2; cbn. rewrite nth_error_remove_at by lia. rewrite Nat.ltb_irrefl. auto. }
  set (os3 := if keep then _ else _).
  assert (Hs : os3 = Some (with_deqs s2 (set_nth i (if keep then qn ++ q else qn) (deqs s2)))).
  { subst os3. destruct keep.
    - rewrite (upd_deq_nat _ _ _ _ Hi).
      erewrite upd_deq_nat.
      2:{ cbn [deqs with_deqs]. apply nth_error_set_nth_eq. apply nth_error_Some; congruence. }
      f_equal. cbn [with_deqs deqs elems cycles heap nproc]. unfold with_deqs; cbn. f_equal.
      rewrite set_nth_set_nth. f_equal. rewrite q_extend_eq, q_rotate_app. reflexivity.
    - f_equal. rewrite set_nth_same by auto. reflexivity. }
  rewrite Hs. cbn [cycles with_deqs s2]. rewrite (py_pop_nat _ _ _ Ec).
  eexists; split; [reflexivity|]. cbn [with_cycles with_deqs elems deqs cycles heap nproc].
  split; [auto|]. split; [auto|].
  assert (Ls : length (remove_at i (deqs s)) = length (elems s)).
  { pose proof (remove_at_length i (deqs s)) as Hl. lia. }
  split.
  { apply nth_error_set_nth_eq. cbn. lia. }
  split; [|split].
  - intros j Hj. rewrite nth_error_set_nth_neq by lia. cbn. rewrite !nth_error_remove_at by lia.
    destruct (Nat.ltb_spec j i); [auto|lia].
  - intros j Hj. cbn. rewrite !nth_error_remove_at by lia. destruct (Nat.ltb_spec j i); [lia|auto].
  - intros j Hj. rewrite nth_error_set_nth_neq by lia. cbn. rewrite !nth_error_remove_at by lia.
    destruct (Nat.ltb_spec j i); [lia|auto].
Qed.

End Proofs.
