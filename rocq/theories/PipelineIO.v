(** * PipelineIO: feedMany, extract, clear and the repeat limit *)
From Coq Require Import List ZArith Lia Bool String.
From stdpp Require Import gmap.
From Verif Require Import PyBase PipelineModel PipelineSpec PipelineProofs PipelineLocal PipelineSched PipelineMore PipelineDrain.
Import ListNotations.

Section IO.
Context {D U : Type}.
Variable B : @behav D U.
Notation pstate := (@pstate D U).
Notation item := (@item D U).
Implicit Types s : pstate.

Lemma feedMany_spec xs : forall s q, nth_error (deqs s) 0 = Some q ->
  feedMany xs s = (with_deqs s (set_nth 0 (q ++ xs) (deqs s)), Ok tt).
Proof.
  induction xs as [|x xs IH]; intros s q Hq; cbn [feedMany].
  - rewrite app_nil_r, set_nth_same by auto. destruct s; reflexivity.
  - unfold feed. change 0%Z with (Z.of_nat 0). rewrite (upd_deq_nat _ _ _ _ Hq).
    rewrite (IH _ (q ++ [x])).
    + unfold with_deqs, q_appendleft; cbn [elems cycles deqs heap nproc]. rewrite set_nth_set_nth, <- app_assoc. reflexivity.
    + unfold with_deqs, q_appendleft; cbn [deqs]. apply nth_error_set_nth_eq. apply nth_error_Some. congruence.
Qed.

Lemma output_nth s : Inv s -> nth_error (deqs s) (length (elems s)) = Some (output s).
Proof.
  intros (Hl & _). unfold output. destruct (deqs s) as [|q qs] eqn:E using rev_ind; [discriminate|].
  rewrite last_last. rewrite app_length in Hl; cbn in Hl. rewrite nth_error_app2 by lia.
  replace (length (elems s) - length qs) with 0 by lia. reflexivity.
Qed.

Lemma extract_full fuel all s : Inv s ->
  extract B fuel all false s =
  match output s with
  | [] => (s, Raise IndexError)
  | x :: q => if all then (with_deqs s (set_nth (length (elems s)) [] (deqs s)), Ok (XAll (output s)))
              else (with_deqs s (set_nth (length (elems s)) q (deqs s)), Ok (XOne x))
  end.
Proof.
  intros HI. pose proof (output_nth s HI) as Ho. destruct HI as (Hl & _).
  unfold extract, py_get, py_set. rewrite Hl, py_index_last, Ho.
  destruct (output s); [reflexivity|]. destruct all; reflexivity.
Qed.

Lemma output_with s q : Inv s -> output (with_deqs s (set_nth (length (elems s)) q (deqs s))) = q.
Proof.
  intros HI. assert (HI2 : Inv (with_deqs s (set_nth (length (elems s)) q (deqs s)))).
  { apply wd_inv; auto. apply set_nth_length. }
  pose proof (output_nth _ HI2) as H. destruct HI as (Hl & _). change (nth_error (set_nth (length (elems s)) q (deqs s)) (length (elems s)) = Some (output (with_deqs s (set_nth (length (elems s)) q (deqs s))))) in H.
  rewrite nth_error_set_nth_eq in H by lia. injection H as H. symmetry. exact H.
Qed.

Lemma clear_seq_spec (js : list nat) : forall s, (forall j, In j js -> j < length (deqs s)) ->
  exists s', clear_seq (List.map Z.of_nat js) s = (s', Ok tt) /\
    elems s' = elems s /\ cycles s' = cycles s /\ heap s' = heap s /\ nproc s' = nproc s /\
    length (deqs s') = length (deqs s) /\
    (forall j, In j js -> nth_error (deqs s') j = Some []) /\
    (forall j, ~ In j js -> nth_error (deqs s') j = nth_error (deqs s) j).
Proof.
  induction js as [|j js IH]; intros s Hr; cbn [List.map clear_seq].
  - exists s. split_and!; auto. intros j [].
  - destruct (nth_error (deqs s) j) as [q|] eqn:Eq.
    2:{ apply nth_error_None in Eq. specialize (Hr j (or_introl eq_refl)). lia. }
    rewrite (upd_deq_nat _ _ _ _ Eq).
    destruct (IH (with_deqs s (set_nth j [] (deqs s)))) as (s' & E & E1 & E2 & E3 & E4 & E5 & E6 & E7).
    { intros k Hk. cbn. rewrite set_nth_length. apply Hr. now right. }
    cbn in *. rewrite set_nth_length in E5.
    exists s'. split_and!; auto.
    + intros k [<-|Hk]; [|auto]. destruct (in_dec Nat.eq_dec j js) as [Hj|Hj]; [auto|].
      rewrite E7 by auto. apply nth_error_set_nth_eq. apply nth_error_Some; congruence.
    + intros k Hk. rewrite E7 by tauto. apply nth_error_set_nth_neq. tauto.
Qed.

Lemma clear_spec s stages : Inv s ->
  (match stages with Some l => forall j, In j l -> j <= length (elems s) | None => True end) ->
  exists s', clear (option_map (List.map Z.of_nat) stages) s = (s', Ok tt) /\
    elems s' = elems s /\ cycles s' = cycles s /\ heap s' = heap s /\ nproc s' = nproc s /\
    forall j, j <= length (elems s) ->
      (match stages with Some l => In j l -> nth_error (deqs s') j = Some []
                       | None => nth_error (deqs s') j = Some [] end) /\
      (match stages with Some l => ~ In j l -> nth_error (deqs s') j = nth_error (deqs s) j | None => True end).
Proof.
  intros (Hl & _) Hr. unfold clear. destruct stages as [l|]; cbn [option_map].
  - destruct (clear_seq_spec l s) as (s' & E & ? & ? & ? & ? & ? & ? & ?); [intros j Hj; specialize (Hr j Hj); lia|].
    exists s'. split_and!; auto.
  - destruct (clear_seq_spec (seq 0 (length (elems s) + 1)) s) as (s' & E & ? & ? & ? & ? & ? & H6 & ?).
    { intros j Hj. apply in_seq in Hj. lia. }
    exists s'. split_and!; auto. intros j Hj. split; auto. apply H6. apply in_seq. lia.
Qed.

(** repeat=n: the loop gives up after exactly n unsuccessful attempts *)
Lemma retry_loop_stuck e u d k u' : stuck B e u d k u' ->
  forall fuel s (i : nat) c base q limit acc, Inv s ->
  nth_error (elems s) i = Some e -> nth_error (cycles s) i = Some (S c) ->
  e_accs (est B (heap s) e) = [] -> attrs_of B s e = u ->
  deqs s = pushf i (IData d) base -> nth_error base i = Some q -> nth_error base (S i) <> None ->
  limit = Z.of_nat (S c + k) -> k < fuel ->
  exists s', retry_loop B fuel (Z.of_nat i) (Some limit) s acc = (s', Raise PipelineError) /\
    deqs s' = pushf i (IData d) base /\ nth_error (cycles s') i = Some (S c + k) /\ attrs_of B s' e = u'.
Proof.
  induction 1 as [u d|u d u1 k u' Hck Hat Hrest IH];
    intros fuel s i c base q limit acc HI He Hc Ha Hu Hd Hbi Hbn Hlim Hf.
  - destruct fuel as [|fuel]; [lia|]. cbn [retry_loop]. rewrite py_get_nat, Hc.
    assert (Hnl : (limit <=? Z.of_nat (S c))%Z = true) by (apply Z.leb_le; lia).
    rewrite Hnl, Nat.add_0_r. exists s. auto.
  - destruct fuel as [|fuel]; [lia|]. cbn [retry_loop]. rewrite py_get_nat, Hc.
    assert (Hnl : (limit <=? Z.of_nat (S c))%Z = false) by (apply Z.leb_gt; lia).
    rewrite Hnl.
    destruct (nth_error base (S i)) as [qn|] eqn:Eqn; [|congruence].
    rewrite (step_attempt B s i e d q (S c) qn u1 [d] None); auto.
    2:{ rewrite Hd. now apply pushf_nth. }
    2:{ rewrite Hd. rewrite pushf_ne by lia. auto. }
    2:{ now rewrite Hu. } 2:{ now rewrite Hu. }
    cbv beta iota zeta. set (s1 := sets _ _ _ _).
    assert (Hli : i < length (cycles s)) by (apply nth_error_Some; congruence).
    assert (HI1 : Inv s1).
    { apply sets_inv; rewrite ?set_nth_length; auto. }
    destruct (IH fuel s1 i (S c) base q limit (acc ++ [RFalse])) as (s' & E & E1 & E2 & E3); auto.
    { unfold s1; cbn. apply nth_error_set_nth_eq; auto. }
    { unfold s1; cbn. now rewrite est_insert. }
    { unfold s1, attrs_of; cbn. now rewrite est_insert. }
    { unfold s1; cbn [deqs sets rev List.map app]. rewrite Hd. unfold pushf. rewrite Hbi. apply set_nth_set_nth. }
    { congruence. }
    { lia. } { lia. }
    exists s'. rewrite E. split_and!; auto. rewrite E2. f_equal. lia.
Qed.

Lemma processToStage_limit s (k : nat) e d q0 u' limit fuel : Inv s -> nth_error (elems s) 0 = Some e ->
  e_accs (est B (heap s) e) = [] -> nth_error (cycles s) 0 = Some 0 ->
  nth_error (deqs s) 0 = Some (IData d :: q0) ->
  (0 < limit)%Z -> stuck B e (attrs_of B s e) d (Z.to_nat limit) u' -> Z.to_nat limit < fuel ->
  exists s', processToStage B fuel (Z.of_nat k) (RepInt limit) s = (s', Raise PipelineError) /\
    deqs s' = deqs s /\ attrs_of B s' e = u' /\ nth_error (cycles s') 0 = Some (Z.to_nat limit).
Proof.
  intros HI He Ha Hc E0 Hlim Hst Hf. pose proof HI as (Hl1 & Hl2).
  assert (L0 : 0 < length (elems s)) by (apply nth_error_Some; congruence).
  unfold processToStage. assert (Hk : (0 <=? Z.of_nat k)%Z = true) by (apply Z.leb_le; lia). rewrite Hk.
  replace (Z.to_nat (Z.of_nat k + 1)) with (S k) by lia.
  cbn [seq stages_loop rep_lim]. assert (Hz : (limit =? 0)%Z = false) by (apply Z.eqb_neq; lia). rewrite Hz.
  rewrite py_get_nat, E0. destruct fuel as [|fuel]; [lia|].
  cbn [drain_loop]. rewrite py_get_nat, E0.
  destruct (nth_error (deqs s) 1) as [qn|] eqn:Eqn; [|apply nth_error_None in Eqn; lia].
  destruct (Z.to_nat limit) as [|n] eqn:Ek; [lia|].
  inversion Hst as [|u0 d0 u1 k0 u0' Hck Hat Hrest]; subst.
  rewrite (step_attempt B s 0 e d q0 0 qn u1 [d] None) by auto.
  cbv beta iota zeta. set (s2 := sets _ _ _ _).
  assert (HI2 : Inv s2) by (apply sets_inv; rewrite ?set_nth_length; auto).
  destruct (retry_loop_stuck e u1 d n u' Hrest fuel s2 0 0 (set_nth 0 q0 (deqs s)) q0 limit []) as (s' & E & E1 & E2 & E3); auto.
  { unfold s2; cbn. destruct (cycles s); [discriminate|reflexivity]. }
  { unfold s2; cbn. now rewrite est_insert. }
  { unfold s2, attrs_of; cbn. now rewrite est_insert. }
  { unfold s2; cbn [deqs sets rev List.map app]. unfold pushf.
    rewrite nth_error_set_nth_eq by lia. now rewrite set_nth_set_nth. }
  { apply nth_error_set_nth_eq; lia. }
  { rewrite nth_error_set_nth_neq by lia. congruence. }
  { lia. } { lia. }
  rewrite E. exists s'. split_and!; auto. rewrite E1. unfold pushf. rewrite nth_error_set_nth_eq by lia.
  rewrite set_nth_set_nth. now apply set_nth_same.
Qed.

Lemma extract_auto s : Inv s -> NoDup (elems s) -> elems s <> [] ->
  (forall j, j < length (elems s) -> nth_error (cycles s) j = Some 0) ->
  (forall e, In e (elems s) -> completes B e /\ e_accs (est B (heap s) e) = []) ->
  (forall j, j < length (elems s) -> exists ds, nth_error (deqs s) j = Some (List.map IData ds)) ->
  snd (flow B (elems s) (List.map (attrs_of B s) (elems s)) (deqs s) []) <> [] ->
  exists N s', forall fuel, N <= fuel ->
    extract B fuel true true s =
      (s', Ok (XAll (snd (flow B (elems s) (List.map (attrs_of B s) (elems s)) (deqs s) [])))) /\
    elems s' = elems s /\ (forall j, j <= length (elems s) -> nth_error (deqs s') j = Some []).
Proof.
  intros HI HN Hne Hc Hcl Hq Hf. pose proof HI as (Hl1 & Hl2).
  assert (L0 : 0 < length (elems s)) by (destruct (elems s); [congruence|cbn; lia]).
  destruct (processToStage_drains B s (length (elems s) - 1) RepTrue None) as (N & s1 & H); auto; try lia.
  { intros j Hj. apply Hq. lia. }
  destruct (H N) as (_ & E1 & E2 & E3 & E4 & E5 & E6); auto.
  replace (S (length (elems s) - 1)) with (length (elems s)) in * by lia.
  rewrite firstn_all in E6. rewrite E6 in *. cbn [snd] in *.
  assert (HI1 : Inv s1).
  { destruct (H N (le_n _)) as (E & _). pose proof (processToStage_shape B N (Z.of_nat (length (elems s) - 1)) RepTrue s) as Hs.
    rewrite E in Hs. eapply same_shape_inv; eauto. }
  pose proof (output_nth s1 HI1) as Ho. rewrite E1 in Ho.
  assert (Hout : List.nth (length (elems s)) (deqs s1) [] = output s1) by (eapply nth_of_nth_error; eauto).
  rewrite Hout in *.
  exists N, (with_deqs s1 (set_nth (length (elems s1)) [] (deqs s1))). intros fuel Hfu.
  assert (Epts : processToStage B fuel (-1) RepTrue s = (s1, Ok (repeat (SRList []) (length (elems s))))).
  { destruct (H fuel Hfu) as (E & _). rewrite <- E. unfold processToStage.
    f_equal. cbn. assert (Hz : (0 <=? Z.of_nat (length (elems s) - 1))%Z = true) by (apply Z.leb_le; lia). rewrite Hz.
    f_equal. rewrite Hl1. lia. }
  split_and!; auto.
  - pose proof (extract_full fuel true s1 HI1) as Hx. destruct (output s1) as [|x q] eqn:Eo; [congruence|].
    rewrite <- Hx. unfold extract at 1 2. rewrite Epts. reflexivity.
  - intros j Hj. cbn. rewrite E1. destruct (Nat.eq_dec j (length (elems s))) as [->|Hn].
    + apply nth_error_set_nth_eq. destruct HI1 as (Hl & _). rewrite E1 in Hl. lia.
    + rewrite nth_error_set_nth_neq by auto. apply E3. lia.
Qed.
End IO.
