(** * PipelineDrain: process(repeat) and processSingle *)
From Coq Require Import List ZArith Lia Bool String.
From stdpp Require Import gmap.
From Verif Require Import PyBase PipelineModel PipelineProofs PipelineLocal PipelineSpec PipelineSched PipelineMore.
Import ListNotations.

Section Drain.
Context {D U : Type}.
Variable B : @behav D U.
Notation pstate := (@pstate D U).
Notation item := (@item D U).
Notation estate := (@estate D U).
Notation attempt := (attempt B).
Notation attempts := (attempts B).
Notation through := (through B).

Lemma sets_inv (s : pstate) c q h : Inv s -> length c = length (cycles s) -> length q = length (deqs s) -> Inv (sets s c q h).
Proof. intros (H1 & H2) Hc Hq. split; cbn; congruence. Qed.
Lemma wd_inv (s : pstate) q : Inv s -> length q = length (deqs s) -> Inv (with_deqs s q).
Proof. intros (H1 & H2) Hq. split; cbn; congruence. Qed.

Definition clean (s : pstate) (i : nat) (e : nat) : Prop :=
  nth_error (elems s) i = Some e /\ nth_error (cycles s) i = Some 0 /\ e_accs (est B (heap s) e) = [].

Lemma stage_in_attempt e last u d u' y : attempt e u d = (u', [], ORet (Some (IData y))) ->
  stage_in B e last u (IData d) = (u', [IData y]).
Proof.
  unfold PipelineSpec.attempt, stage_in. destruct (p_out (b_process B e u d)) as [[z|]|x] eqn:E; intros H.
  - inversion H; subst; auto.
  - inversion H as [[H1 H2 H3]]. rewrite H3. reflexivity.
  - discriminate.
Qed.

(** draining one stage *)
Lemma drain_stage ds : forall fuel s (i : nat) e qn lim acc, Inv s -> clean s i e -> completes B e ->
  nth_error (deqs s) i = Some (List.map IData ds) -> nth_error (deqs s) (S i) = Some qn ->
  length ds < fuel ->
  exists h', drain_loop B fuel (Z.of_nat i) lim s acc =
     (sets s (cycles s) (set_nth (S i) (qn ++ snd (stage_run B e false (attrs_of B s e) (List.map IData ds)))
                                (set_nth i [] (deqs s))) h', Ok acc) /\
   e_u (est B h' e) = fst (stage_run B e false (attrs_of B s e) (List.map IData ds)) /\
   e_accs (est B h' e) = [] /\ (forall e', e' <> e -> h' !! e' = heap s !! e').
Proof.
  induction ds as [|d ds IH]; intros fuel s i e qn lim acc HI (He & Hc & Ha) Hcomp Hq Hqn Hf.
  - destruct fuel as [|fuel]; [lia|]. cbn [drain_loop List.map]. rewrite py_get_nat, Hq. cbn [List.map].
    exists (heap s). cbn [stage_run fst snd]. rewrite app_nil_r. repeat split; auto.
    f_equal. rewrite (set_nth_same i) by exact Hq. rewrite set_nth_same by auto. destruct s; reflexivity.
  - destruct fuel as [|fuel]; [lia|]. cbn [drain_loop]. rewrite py_get_nat, Hq. cbn [List.map].
    destruct (Hcomp (attrs_of B s e) d) as (Hck & u' & y & Hat).
    assert (Li : i < length (elems s)) by (apply nth_error_Some; congruence).
    pose proof HI as (Hl1 & Hl2).
    rewrite (step_attempt B s i e d (List.map IData ds) 0 qn u' [] (Some (IData y))) by auto.
    cbn [rev List.map app]. set (s1 := sets _ _ _ _).
    destruct fuel as [|fuel]; [simpl in Hf; lia|].
    assert (Hc1 : nth_error (cycles s1) i = Some 0).
    { subst s1; cbn. apply nth_error_set_nth_eq. lia. }
    cbn [retry_loop]. rewrite py_get_nat, Hc1.
    assert (HI1 : Inv s1) by ((apply sets_inv || apply wd_inv); rewrite ?set_nth_length; auto).
    assert (Hu1 : attrs_of B s1 e = u') by (unfold attrs_of, s1; cbn; now rewrite est_insert).
    destruct (IH (S fuel) s1 i e (qn ++ [IData y]) lim acc) as (h' & E & E1 & E2 & E3); auto.
    { split; [exact He|]. split; [exact Hc1|]. unfold s1; cbn. now rewrite est_insert. }
    { unfold s1; cbn [deqs sets]. rewrite nth_error_set_nth_neq by lia. apply nth_error_set_nth_eq; lia. }
    { unfold s1; cbn [deqs sets]. apply nth_error_set_nth_eq. rewrite set_nth_length; lia. }
    { simpl in Hf; lia. }
    rewrite E. exists h'. rewrite Hu1 in *. cbn [stage_run]. rewrite (stage_in_attempt _ _ _ _ _ _ Hat).
    destruct (stage_run B e false u' (List.map IData ds)) as [u2 o2]. cbn [fst snd app] in *.
    repeat split; auto.
    + f_equal. unfold s1. unfold sets; cbn [elems cycles deqs heap nproc]. f_equal.
      * apply set_nth_same; auto.
      * rewrite (set_nth_comm i (S i)) by lia. rewrite !set_nth_set_nth, <- app_assoc. reflexivity.
    + intros e' Hne. rewrite E3 by auto. unfold s1; cbn. apply lookup_insert_ne; auto.
Qed.

Lemma stage_run_data e (Hc : completes B e) : forall ds last u,
  stage_run B e last u (List.map IData ds) = stage_run B e false u (List.map IData ds) /\
  exists ys, snd (stage_run B e last u (List.map IData ds)) = List.map IData ys /\ length ys = length ds.
Proof.
  induction ds as [|d ds IH]; intros last u; cbn [List.map stage_run].
  - split; auto. exists []. auto.
  - destruct (Hc u d) as (_ & u' & y & Hat). rewrite !(stage_in_attempt _ _ _ _ _ _ Hat).
    destruct (IH last u') as (E & ys & Ey & Hl). rewrite E in *.
    destruct (stage_run B e false u' (List.map IData ds)) as [u2 o2]. cbn in *. split; auto.
    exists (y :: ys). rewrite Ey. simpl. auto.
Qed.

Lemma flow_inc es us q qs inc : length us = length es ->
  flow B es us ((q ++ inc) :: qs) [] = flow B es us (q :: qs) inc.
Proof.
  destruct es as [|e es]; destruct us as [|u us]; try discriminate; intros _; cbn [flow]; now rewrite app_nil_r.
Qed.

Definition data_queues (s : pstate) (a m : nat) : Prop :=
  forall j, a <= j < a + m -> exists ds, nth_error (deqs s) j = Some (List.map IData ds).

Definition total (s : pstate) (a m : nat) : nat :=
  fold_right (fun j n => length (List.nth j (deqs s) []) + n) 0 (seq a m).

Lemma nth_error_skipn0 {A} a (l : list A) x : nth_error l a = Some x -> skipn a l = x :: skipn (S a) l.
Proof.
  revert a; induction l as [|y l IH]; intros [|a] H; try discriminate.
  - injection H as ->. reflexivity.
  - apply (IH a H).
Qed.

Lemma nth_of_nth_error {A} (l : list A) j x d : nth_error l j = Some x -> List.nth j l d = x.
Proof. intros H. now apply List.nth_error_nth. Qed.

Lemma map_attrs_skipn_ext (es : list nat) (f g : nat -> U) : (forall e, In e es -> f e = g e) -> List.map f es = List.map g es.
Proof. apply map_ext_in. Qed.

Lemma NoDup_skipn_nin (es : list nat) a e : NoDup es -> nth_error es a = Some e -> ~ In e (skipn (S a) es).
Proof.
  intros HN H. rewrite <- (firstn_skipn a es) in HN. rewrite (nth_error_skipn0 a es e H) in HN.
  apply NoDup_app in HN as (_ & _ & HN). apply NoDup_cons in HN as [Hn _].
  intros Hin. apply Hn. now apply elem_of_list_In.
Qed.

Lemma In_firstn {A} (x : A) n l : In x (firstn n l) -> In x l.
Proof. intros H. rewrite <- (firstn_skipn n l). apply in_or_app. auto. Qed.

Lemma stages_drain : forall m a fuel s lim acc, Inv s -> NoDup (elems s) ->
  a + m <= length (elems s) ->
  (forall j, a <= j < a + m -> nth_error (cycles s) j = Some 0) ->
  (forall e, In e (elems s) -> completes B e /\ e_accs (est B (heap s) e) = []) ->
  data_queues s a m -> m + total s a m * m < fuel ->
  exists s', stages_loop B fuel (seq a m) (Some lim) s acc = (s', Ok (acc ++ repeat (SRList []) m)) /\
    elems s' = elems s /\ cycles s' = cycles s /\ nproc s' = nproc s /\
    (forall j, j < a \/ a + m < j -> nth_error (deqs s') j = nth_error (deqs s) j) /\
    (forall j, a <= j < a + m -> nth_error (deqs s') j = Some []) /\
    (forall e, ~ In e (firstn m (skipn a (elems s))) -> heap s' !! e = heap s !! e) /\
    flow B (firstn m (skipn a (elems s))) (List.map (attrs_of B s) (firstn m (skipn a (elems s))))
           (skipn a (deqs s)) [] =
    (List.map (attrs_of B s') (firstn m (skipn a (elems s))), List.nth (a + m) (deqs s') []).
Proof.
  induction m as [|m IH]; intros a fuel s lim acc HI HN Ham Hcyc Hcomp Hdata Hfuel.
  - exists s. cbn [seq stages_loop repeat firstn List.map flow]. rewrite app_nil_r.
    split; [reflexivity|]. split_and!; auto; try (intros; lia).
    pose proof (proj1 HI).
    destruct (nth_error (deqs s) a) as [q|] eqn:Eq; [|apply nth_error_None in Eq; lia].
    rewrite (nth_error_skipn0 _ _ _ Eq). rewrite Nat.add_0_r. rewrite (nth_of_nth_error _ _ _ _ Eq).
    rewrite firstn_O; cbn [flow List.map]; now rewrite app_nil_r.
  - pose proof HI as (Hl1 & Hl2).
    destruct (nth_error (elems s) a) as [e|] eqn:He; [|apply nth_error_None in He; lia].
    assert (Hin : In e (elems s)) by (eapply nth_error_In; eauto).
    destruct (Hcomp e Hin) as (Hce & Hae).
    destruct (Hdata a ltac:(lia)) as (ds & Hq).
    destruct (nth_error (deqs s) (S a)) as [qn|] eqn:Hqn; [|apply nth_error_None in Hqn; lia].
    assert (Htot : total s a (S m) = length ds + total s (S a) m).
    { unfold total. cbn [seq fold_right]. rewrite (nth_of_nth_error _ _ _ _ Hq), map_length. reflexivity. }
    cbn [seq stages_loop]. rewrite py_get_nat, Hq.
    destruct (drain_stage ds fuel s a e qn lim [] HI) as (h' & E & E1 & E2 & E3); auto.
    { split_and!; auto. apply Hcyc; lia. }
    { rewrite Htot in Hfuel. nia. }
    destruct (stage_run_data e Hce ds false (attrs_of B s e)) as (_ & ys & Eys & Hlys).
    assert (Hsr : forall last, stage_run B e last (attrs_of B s e) (List.map IData ds) = stage_run B e false (attrs_of B s e) (List.map IData ds)).
    { intros last. apply (stage_run_data e Hce ds last). }
    destruct (stage_run B e false (attrs_of B s e) (List.map IData ds)) as [u1 o1]. cbn [fst snd] in *. subst o1.
    rewrite E. set (s1 := sets _ _ _ _) in *.
    assert (HI1 : Inv s1) by ((apply sets_inv || apply wd_inv); rewrite ?set_nth_length; auto).
    assert (Hd1 : forall j, j <> a -> j <> S a -> nth_error (deqs s1) j = nth_error (deqs s) j).
    { intros j H1 H2. unfold s1; cbn [deqs sets]. rewrite !nth_error_set_nth_neq by auto. reflexivity. }
    assert (Hda : nth_error (deqs s1) a = Some []).
    { unfold s1; cbn [deqs sets]. rewrite nth_error_set_nth_neq by lia. apply nth_error_set_nth_eq; lia. }
    assert (HdSa : nth_error (deqs s1) (S a) = Some (qn ++ List.map IData ys)).
    { unfold s1; cbn [deqs sets]. apply nth_error_set_nth_eq. rewrite set_nth_length; lia. }
    assert (Hh1 : forall e', e' <> e -> est B (heap s1) e' = est B (heap s) e').
    { intros e' Hne. unfold est. unfold s1; cbn. rewrite E3 by auto. reflexivity. }
    assert (Ht1 : total s1 (S a) m <= length ds + total s (S a) m).
    { unfold total. destruct m as [|m']; cbn [seq fold_right]; [lia|].
      rewrite (nth_of_nth_error _ _ _ _ HdSa), (nth_of_nth_error _ _ _ _ Hqn), app_length, map_length.
      assert (Heq : fold_right (fun j n => length (List.nth j (deqs s1) []) + n) 0 (seq (S (S a)) m') =
               fold_right (fun j n => length (List.nth j (deqs s) []) + n) 0 (seq (S (S a)) m')).
      { assert (Hg : forall l, (forall j, In j l -> S a < j) ->
           fold_right (fun j n => length (List.nth j (deqs s1) []) + n) 0 l =
           fold_right (fun j n => length (List.nth j (deqs s) []) + n) 0 l).
        { induction l as [|j l IHl]; intros Hj; cbn [fold_right]; auto. rewrite IHl by (intros; apply Hj; now right).
          f_equal. f_equal. assert (S a < j) by (apply Hj; now left).
          specialize (Hd1 j ltac:(lia) ltac:(lia)).
          destruct (nth_error (deqs s) j) as [qj|] eqn:Eq.
          - rewrite (nth_of_nth_error _ _ _ _ Eq), (nth_of_nth_error _ _ _ _ Hd1). reflexivity.
          - rewrite !nth_overflow; auto; apply nth_error_None; auto. }
        apply Hg. intros j Hj. apply in_seq in Hj. lia. }
      rewrite Heq. lia. }
    destruct (IH (S a) fuel s1 lim (acc ++ [SRList []])) as (s2 & F & F1 & F2 & F3 & F4 & F5 & F6 & F7); auto.
    { cbn. lia. }
    { intros j Hj. unfold s1; cbn. apply Hcyc; lia. }
    { intros e' Hin'. split; [apply Hcomp; auto|].
      destruct (Nat.eq_dec e' e) as [->|Hne]; [exact E2|]. rewrite Hh1 by auto. apply Hcomp; auto. }
    { intros j Hj. destruct (Nat.eq_dec j (S a)) as [->|Hne].
      - destruct (Hdata (S a) ltac:(lia)) as (ds1 & Hq1). rewrite Hq1 in Hqn. injection Hqn as <-.
        exists (ds1 ++ ys). rewrite HdSa, map_app. reflexivity.
      - rewrite Hd1 by lia. apply Hdata. lia. }
    { rewrite Htot in Hfuel. nia. }
    change (elems s1) with (elems s) in *. change (cycles s1) with (cycles s) in *. change (nproc s1) with (nproc s) in *.
    assert (Hnin : ~ In e (firstn m (skipn (S a) (elems s)))).
    { intros Hi. apply In_firstn in Hi. revert Hi. apply NoDup_skipn_nin; auto. }
    rewrite F. exists s2. split; [now rewrite <- app_assoc|]. split_and!; auto.
    + intros j Hj. rewrite F4 by lia. apply Hd1; lia.
    + intros j Hj. destruct (Nat.eq_dec j a) as [->|Hne].
      * rewrite F4 by lia. exact Hda.
      * apply F5. lia.
    + intros e' Hn. rewrite (nth_error_skipn0 _ _ _ He) in Hn. cbn [firstn] in Hn.
      rewrite F6. { unfold s1; cbn. apply E3. intros ->. apply Hn. now left. }
      intros Hi. apply Hn. now right.
    + rewrite (nth_error_skipn0 _ _ _ He). rewrite (nth_error_skipn0 _ _ _ Hq). cbn [firstn List.map flow].
      rewrite app_nil_r, Hsr.
      assert (Hsk : skipn (S a) (deqs s1) = (qn ++ List.map IData ys) :: skipn (S (S a)) (deqs s)).
      { rewrite (nth_error_skipn0 _ _ _ HdSa). f_equal. unfold s1; cbn [deqs sets].
        clear. generalize (qn ++ map IData ys) as v. intros v. generalize (deqs s) as l. revert a.
        induction a as [|a IHa]; intros [|x l]; cbn; auto.
        - destruct l; reflexivity.
        - apply IHa. }
      rewrite Hsk in F7. rewrite flow_inc in F7 by now rewrite map_length.
      rewrite (nth_error_skipn0 _ _ _ Hqn).
      rewrite (map_attrs_skipn_ext _ (attrs_of B s1) (attrs_of B s)) in F7.
      2:{ intros e' Hi. unfold attrs_of. rewrite Hh1; auto. intros ->. auto. }
      rewrite F7. replace (a + S m) with (S a + m) by lia. f_equal. f_equal.
      unfold attrs_of. unfold est. rewrite F6 by auto. symmetry. exact E1.
Qed.

(** process(repeat) on a pipeline of completing elements *)
Lemma processToStage_drains s (k : nat) r lim : Inv s -> NoDup (elems s) -> k < length (elems s) ->
  rep_lim r = Some lim ->
  (forall j, j < length (elems s) -> nth_error (cycles s) j = Some 0) ->
  (forall e, In e (elems s) -> completes B e /\ e_accs (est B (heap s) e) = []) ->
  data_queues s 0 (S k) ->
  exists N s', forall fuel, N <= fuel ->
    processToStage B fuel (Z.of_nat k) r s = (s', Ok (repeat (SRList []) (S k))) /\
    elems s' = elems s /\ cycles s' = cycles s /\
    (forall j, j <= k -> nth_error (deqs s') j = Some []) /\
    (forall j, S k < j -> nth_error (deqs s') j = nth_error (deqs s) j) /\
    (forall e, ~ In e (firstn (S k) (elems s)) -> heap s' !! e = heap s !! e) /\
    flow B (firstn (S k) (elems s)) (List.map (attrs_of B s) (firstn (S k) (elems s))) (deqs s) [] =
    (List.map (attrs_of B s') (firstn (S k) (elems s)), List.nth (S k) (deqs s') []).
Proof.
  intros HI HN Hk Hr Hcyc Hcomp Hdata.
  exists (S (S k + total s 0 (S k) * S k)).
  assert (Hex : forall fuel, S (S k + total s 0 (S k) * S k) <= fuel -> exists s',
    processToStage B fuel (Z.of_nat k) r s = (s', Ok (repeat (SRList []) (S k))) /\
    elems s' = elems s /\ cycles s' = cycles s /\
    (forall j, j <= k -> nth_error (deqs s') j = Some []) /\
    (forall j, S k < j -> nth_error (deqs s') j = nth_error (deqs s) j) /\
    (forall e, ~ In e (firstn (S k) (elems s)) -> heap s' !! e = heap s !! e) /\
    flow B (firstn (S k) (elems s)) (List.map (attrs_of B s) (firstn (S k) (elems s))) (deqs s) [] =
    (List.map (attrs_of B s') (firstn (S k) (elems s)), List.nth (S k) (deqs s') [])).
  { intros fuel Hf. destruct (stages_drain (S k) 0 fuel s lim [] HI HN) as (s' & F & F1 & F2 & F3 & F4 & F5 & F6 & F7); auto; try lia.
    { intros j Hj. apply Hcyc. lia. }
    exists s'. unfold processToStage. rewrite Hr.
    destruct (Z.leb_spec 0 (Z.of_nat k)); [|lia].
    replace (Z.to_nat (Z.of_nat k + 1)) with (S k) by lia. rewrite F.
    change (skipn 0 (elems s)) with (elems s) in *. change (skipn 0 (deqs s)) with (deqs s) in *.
    split_and!; auto.
    - intros j Hj. apply F5. lia. }
  (* the final state does not depend on the fuel *)
  destruct (Hex _ (le_n _)) as (s' & Hs').
  exists s'. intros fuel Hf. destruct (Hex fuel Hf) as (s2 & Hs2).
  enough (s2 = s') as -> by exact Hs2.
  destruct Hs' as (P1 & _). destruct Hs2 as (P2 & _).
  (* fuel monotonicity *)
  assert (M1 : forall f i l t acc0 t' v, retry_loop B f i l t acc0 = (t', Ok v) ->
     forall g, f <= g -> retry_loop B g i l t acc0 = (t', Ok v)).
  { induction f as [|f IH]; intros i l t acc0 t' v H g Hg; [discriminate|].
    destruct g as [|g]; [lia|]. cbn [retry_loop] in *.
    destruct (py_get (cycles t) i) as [[|c]|]; auto.
    destruct (match l with Some l0 => _ | None => false end); auto.
    destruct (processStage B i t) as [t1 [x|x|]]; auto. apply IH; auto. lia. }
  assert (M2 : forall f i l t acc0 t' v, drain_loop B f i l t acc0 = (t', Ok v) ->
     forall g, f <= g -> drain_loop B g i l t acc0 = (t', Ok v)).
  { induction f as [|f IH]; intros i l t acc0 t' v H g Hg; [discriminate|].
    destruct g as [|g]; [lia|]. cbn [drain_loop] in *.
    destruct (py_get (deqs t) i) as [[|x q]|]; auto.
    destruct (processStage B i t) as [t1 [y|y|]]; auto.
    destruct (retry_loop B f i l t1 acc0) as [t2 [y2|y2|]] eqn:Er; try discriminate.
    rewrite (M1 _ _ _ _ _ _ _ Er) by lia. apply IH; auto. lia. }
  assert (M3 : forall f sts l t acc0 t' v, stages_loop B f sts (Some l) t acc0 = (t', Ok v) ->
     forall g, f <= g -> stages_loop B g sts (Some l) t acc0 = (t', Ok v)).
  { intros f sts. induction sts as [|st sts IH]; intros l t acc0 t' v H g Hg; cbn [stages_loop] in *; auto.
    destruct (py_get (deqs t) (Z.of_nat st)) as [q|]; auto.
    destruct (drain_loop B f (Z.of_nat st) l t []) as [t1 [x|x|]] eqn:Ed; try discriminate.
    rewrite (M2 _ _ _ _ _ _ _ Ed) by lia. apply IH; auto. }
  unfold processToStage in P1, P2. rewrite Hr in P1, P2.
  eapply M3 in P1; [|exact Hf]. rewrite P1 in P2. congruence.
Qed.

(** ** processSingle *)
Definition pushf (a : nat) (x : item) (base : list (list item)) : list (list item) :=
  match nth_error base a with Some q => set_nth a (x :: q) base | None => base end.

Lemma pushf_nth a x base q : nth_error base a = Some q -> nth_error (pushf a x base) a = Some (x :: q).
Proof. intros H. unfold pushf. rewrite H. apply nth_error_set_nth_eq. apply nth_error_Some; congruence. Qed.
Lemma pushf_ne a x base j : j <> a -> nth_error (pushf a x base) j = nth_error base j.
Proof. intros H. unfold pushf. destruct (nth_error base a); auto. apply nth_error_set_nth_neq; auto. Qed.
Lemma pushf_length a x base : length (pushf a x base) = length base.
Proof. unfold pushf. destruct (nth_error base a); auto. apply set_nth_length. Qed.

Definition ok_retries (limit : Z) (k : nat) : Prop := limit = 0%Z \/ (Z.of_nat k < limit)%Z.

(** the retry loop, entered with the datum resaved in front and a counter [S c] *)
Lemma single_retry_ok e u d k u' y : attempts e u d k u' y ->
  forall fuel s (i : nat) c base q limit rf pre, Inv s ->
  nth_error (elems s) i = Some e -> nth_error (cycles s) i = Some (S c) ->
  e_accs (est B (heap s) e) = [] -> attrs_of B s e = u ->
  deqs s = pushf i (IData d) base -> nth_error base i = Some q -> nth_error base (S i) = Some [] ->
  ok_retries limit (S c + k) -> S k < fuel ->
  exists h', single_retry B fuel (Z.of_nat i) limit rf pre s =
      (sets s (set_nth i 0 (cycles s)) (pushf (S i) (IData y) base) h', Ok tt) /\
    e_u (est B h' e) = u' /\ e_accs (est B h' e) = [] /\ (forall e', e' <> e -> h' !! e' = heap s !! e').
Proof.
  induction 1 as [u d u' y Hck Hat|u d u1 k u' y Hck Hat Hrest IH];
    intros fuel s i c base q limit rf pre HI He Hc Ha Hu Hd Hbi Hbn Hlim Hf.
  - destruct fuel as [|fuel]; [lia|]. cbn [single_retry]. rewrite py_get_nat, Hc.
    assert (Hnl : (negb (limit =? 0)%Z && (limit <=? Z.of_nat (S c))%Z)%bool = false).
    { destruct Hlim as [->|Hlim]; [reflexivity|]. apply andb_false_iff. right. apply Z.leb_gt. lia. }
    rewrite Hnl.
    rewrite (step_attempt B s i e d q (S c) [] u' [] (Some (IData y))); auto.
    2:{ rewrite Hd. now apply pushf_nth. }
    2:{ rewrite Hd. rewrite pushf_ne by lia. auto. }
    2:{ now rewrite Hu. } 2:{ now rewrite Hu. }
    destruct fuel as [|fuel]; [lia|]. cbn [single_retry]. rewrite py_get_nat. cbn [cycles sets].
    rewrite nth_error_set_nth_eq by (apply nth_error_Some; congruence).
    eexists; split.
    + f_equal. unfold sets; cbn [elems cycles deqs heap nproc]. f_equal.
      rewrite Hd. unfold pushf. rewrite Hbi, Hbn. cbn [List.map rev app].
      rewrite set_nth_set_nth. rewrite (set_nth_same i q base) by auto. reflexivity.
    + rewrite est_insert. cbn. split_and!; auto. intros e' Hne. apply lookup_insert_ne; auto.
  - destruct fuel as [|fuel]; [lia|]. cbn [single_retry]. rewrite py_get_nat, Hc.
    assert (Hnl : (negb (limit =? 0)%Z && (limit <=? Z.of_nat (S c))%Z)%bool = false).
    { destruct Hlim as [->|Hlim]; [reflexivity|]. apply andb_false_iff. right. apply Z.leb_gt. lia. }
    rewrite Hnl.
    rewrite (step_attempt B s i e d q (S c) [] u1 [d] None); auto.
    2:{ rewrite Hd. now apply pushf_nth. }
    2:{ rewrite Hd. rewrite pushf_ne by lia. auto. }
    2:{ now rewrite Hu. } 2:{ now rewrite Hu. }
    cbv beta iota zeta. set (s1 := sets _ _ _ _).
    assert (Hli : i < length (cycles s)) by (apply nth_error_Some; congruence).
    assert (HI1 : Inv s1).
    { apply sets_inv; rewrite ?set_nth_length; auto. }
    assert (Hd1 : deqs s1 = pushf i (IData d) base).
    { unfold s1; cbn [deqs sets rev List.map app]. rewrite Hd. unfold pushf. rewrite Hbi.
      apply set_nth_set_nth. }
    destruct (IH fuel s1 i (S c) base q limit rf pre) as (h' & E & E1 & E2 & E3); auto.
    { unfold s1; cbn. apply nth_error_set_nth_eq; auto. }
    { unfold s1; cbn. now rewrite est_insert. }
    { unfold s1, attrs_of; cbn. now rewrite est_insert. }
    { replace (S (S c) + k) with (S c + S k) by lia. auto. }
    { lia. }
    rewrite E. exists h'. split_and!; auto.
    + f_equal. unfold s1, sets; cbn [elems cycles deqs heap nproc]. f_equal. apply set_nth_set_nth.
    + intros e' Hne. rewrite E3 by auto. unfold s1; cbn. apply lookup_insert_ne; auto.
Qed.

Lemma single_stages_ok es us x ks us' y : through es us x ks us' y ->
  forall a fuel s base limit rf, Inv s -> NoDup (elems s) ->
  skipn a (elems s) = es -> (forall e, In e es -> e_accs (est B (heap s) e) = []) ->
  List.map (attrs_of B s) es = us ->
  (forall j, a <= j < length (elems s) -> nth_error (cycles s) j = Some 0) ->
  deqs s = pushf a (IData x) base ->
  (forall j, a < j <= length (elems s) -> nth_error base j = Some []) ->
  (forall k, In k ks -> ok_retries limit k /\ S k < fuel) ->
  exists s', single_stages B fuel (seq a (length es)) limit rf s = (s', Ok tt) /\
    elems s' = elems s /\ cycles s' = cycles s /\ nproc s' = nproc s /\
    deqs s' = pushf (a + length es) (IData y) base /\
    List.map (attrs_of B s') es = us' /\ (forall e, ~ In e es -> heap s' !! e = heap s !! e).
Proof.
  induction 1 as [x|e es u us x k u' x' ks us' y Hatt Hth IH];
    intros a fuel s base limit rf HI HN Hes Hacc Hus Hcyc Hd Hbase Hks.
  - exists s. cbn. rewrite Nat.add_0_r. split_and!; auto.
  - assert (He : nth_error (elems s) a = Some e).
    { rewrite <- (firstn_skipn a (elems s)), Hes.
      assert (a <= length (elems s)).
      { destruct (le_gt_dec a (length (elems s))); auto. rewrite skipn_all2 in Hes by lia. discriminate. }
      rewrite nth_error_app2 by (rewrite firstn_length; lia).
      rewrite firstn_length. replace (a - Nat.min a (length (elems s))) with 0 by lia. reflexivity. }
    assert (La : a < length (elems s)) by (apply nth_error_Some; congruence).
    assert (Hes' : skipn (S a) (elems s) = es).
    { rewrite (nth_error_skipn0 _ _ _ He) in Hes. congruence. }
    cbn [List.map] in Hus. injection Hus as Hu Hus.
    pose proof HI as (Hl1 & Hl2).
    assert (Hlb : length base = length (deqs s)) by (rewrite Hd; symmetry; apply pushf_length).
    destruct (nth_error base a) as [qa|] eqn:Hba; [|apply nth_error_None in Hba; lia].
    assert (Hbn : nth_error base (S a) = Some []) by (apply Hbase; lia).
    assert (Hca : nth_error (cycles s) a = Some 0) by (apply Hcyc; lia).
    destruct (Hks k ltac:(now left)) as (Hlim & Hfk).
    cbn [length seq single_stages]. rewrite py_get_nat.
    replace (nth_error (deqs s) a) with (Some (IData x :: qa)) by (rewrite Hd; symmetry; now apply pushf_nth).
    (* outcome of the stage *)
    assert (Hstage : exists s1 r h', processStage B (Z.of_nat a) s = (s1, Ok r) /\
       single_retry B fuel (Z.of_nat a) limit rf (IData x) s1 =
         (sets s (cycles s) (pushf (S a) (IData x') base) h', Ok tt) /\
       e_u (est B h' e) = u' /\ e_accs (est B h' e) = [] /\ (forall e', e' <> e -> h' !! e' = heap s !! e')).
    { assert (Hq0 : nth_error (deqs s) a = Some (IData x :: qa)) by (rewrite Hd; now apply pushf_nth).
      assert (Hqn0 : nth_error (deqs s) (S a) = Some []) by (rewrite Hd, pushf_ne by lia; auto).
      assert (Hae : e_accs (est B (heap s) e) = []) by (apply Hacc; now left).
      inversion Hatt as [u0 d0 u0' y0 Hck Hat|u0 d0 u1 k0 u0' y0 Hck Hat Hrest]; subst.
      - rewrite (step_attempt B s a e x qa 0 [] u' [] (Some (IData x'))) by auto.
        eexists _, _, _. split; [reflexivity|]. destruct fuel as [|fuel]; [lia|]. cbn [single_retry].
        rewrite py_get_nat. cbn [cycles sets]. rewrite nth_error_set_nth_eq by lia. split.
        + f_equal. unfold sets; cbn [elems cycles deqs heap nproc]. f_equal.
          * apply set_nth_same; auto.
          * rewrite Hd. unfold pushf. rewrite Hba, Hbn. cbn [List.map rev app].
            rewrite set_nth_set_nth. rewrite (set_nth_same a qa base) by auto. reflexivity.
        + rewrite est_insert. cbn. split_and!; auto. intros e' Hne. apply lookup_insert_ne; auto.
      - rewrite (step_attempt B s a e x qa 0 [] u1 [x] None) by auto. cbv beta iota zeta. set (s1 := sets _ _ _ _).
        assert (HI1 : Inv s1) by ((apply sets_inv || apply wd_inv); rewrite ?set_nth_length; auto).
        destruct (single_retry_ok e u1 x k0 u' x' Hrest fuel s1 a 0 base qa limit rf (IData x))
          as (h' & E & E1 & E2 & E3); auto.
        + unfold s1; cbn. apply nth_error_set_nth_eq; lia.
        + unfold s1; cbn. now rewrite est_insert.
        + unfold s1, attrs_of; cbn. now rewrite est_insert.
        + unfold s1; cbn [deqs sets rev List.map app]. rewrite Hd. unfold pushf. rewrite Hba. apply set_nth_set_nth.
        + lia.
        + exists s1, RFalse, h'. split_and!; auto.
          * rewrite E. f_equal. unfold s1, sets; cbn [elems cycles deqs heap nproc]. f_equal.
            rewrite set_nth_set_nth. apply set_nth_same; auto.
          * intros e' Hne. rewrite E3 by auto. unfold s1; cbn. apply lookup_insert_ne; auto. }
    destruct Hstage as (s1 & r & h' & P1 & P2 & P3 & P4 & P5).
    rewrite P1, P2. set (s2 := sets _ _ _ _).
    assert (Hnin : ~ In e es) by (rewrite <- Hes'; apply NoDup_skipn_nin; auto).
    assert (Hh2 : forall e', e' <> e -> est B (heap s2) e' = est B (heap s) e').
    { intros e' Hne. unfold est, s2; cbn. rewrite P5 by auto. reflexivity. }
    destruct (IH (S a) fuel s2 base limit rf) as (s3 & Q1 & Q2 & Q3 & Q4 & Q5 & Q6 & Q7); auto.
    + apply sets_inv; rewrite ?pushf_length; auto.
    + intros e' Hin. rewrite Hh2 by (intros ->; auto). apply Hacc. now right.
    + rewrite <- Hus. apply map_ext_in. intros e' Hin. unfold attrs_of. rewrite Hh2; auto. intros ->; auto.
    + intros j Hj. unfold s2; cbn in *. apply Hcyc; lia.
    + intros j Hj. cbn in Hj. apply Hbase. lia.
    + intros k1 Hk1. apply Hks. now right.
    + exists s3. rewrite Q1. split_and!; auto.
      * rewrite Q5. f_equal. lia.
      * cbn [List.map]. f_equal; auto. unfold attrs_of, est. rewrite Q7 by auto. exact P3.
      * intros e' Hn. rewrite Q7 by (intros Hi; apply Hn; now right). unfold s2; cbn. apply P5.
        intros ->. apply Hn. now left.
Qed.

Lemma processSingle_ok s x ks us' y limit rf fuel : Inv s -> NoDup (elems s) ->
  (forall e, In e (elems s) -> e_accs (est B (heap s) e) = []) ->
  (forall j, j < length (elems s) -> nth_error (cycles s) j = Some 0) ->
  (forall j, 0 < j <= length (elems s) -> nth_error (deqs s) j = Some []) ->
  through (elems s) (List.map (attrs_of B s) (elems s)) x ks us' y ->
  (forall k, In k ks -> (limit = 0%Z \/ (Z.of_nat k < limit)%Z) /\ S k < fuel) ->
  exists s', processSingle B fuel (IData x) limit rf s = (s', Ok (IData y)) /\
    deqs s' = deqs s /\ cycles s' = cycles s /\ elems s' = elems s /\
    List.map (attrs_of B s') (elems s) = us'.
Proof.
  intros HI HN Hacc Hcyc Hq Hth Hks. unfold processSingle.
  pose proof HI as (Hl1 & Hl2).
  destruct (nth_error (deqs s) 0) as [q0|] eqn:E0; [|apply nth_error_None in E0; lia].
  change 0%Z with (Z.of_nat 0) at 1. rewrite (upd_deq_nat _ _ _ _ E0).
  set (s1 := with_deqs s _).
  assert (Hd1 : deqs s1 = pushf 0 (IData x) (deqs s)) by (unfold s1, pushf; rewrite E0; reflexivity).
  assert (HI1 : Inv s1) by ((apply sets_inv || apply wd_inv); rewrite ?set_nth_length; auto).
  destruct (single_stages_ok (elems s) (List.map (attrs_of B s) (elems s)) x ks us' y Hth 0 fuel s1 (deqs s) limit rf)
    as (s2 & Q1 & Q2 & Q3 & Q4 & Q5 & Q6 & Q7); auto.
  { intros j Hj. apply Hcyc. unfold s1 in Hj; cbn in Hj. lia. }
  change (elems s1) with (elems s). rewrite Q1. cbn [Nat.add] in Q5.
  unfold py_get, py_set. rewrite Q5, pushf_length, Hl1, py_index_last.
  destruct (nth_error (deqs s) (length (elems s))) as [qo|] eqn:Eo; [|apply nth_error_None in Eo; lia].
  rewrite (pushf_nth _ _ _ _ Eo). eexists; split; [reflexivity|]. cbn.
  split_and!; auto. unfold pushf. rewrite Eo, set_nth_set_nth. apply set_nth_same; auto.
Qed.

(** a datum that never completes at the first stage *)
Lemma single_retry_stuck e u d k u' : stuck B e u d k u' ->
  forall fuel s (i : nat) c base q limit rf pre, Inv s ->
  nth_error (elems s) i = Some e -> nth_error (cycles s) i = Some (S c) ->
  e_accs (est B (heap s) e) = [] -> attrs_of B s e = u ->
  deqs s = pushf i (IData d) base -> nth_error base i = Some q -> nth_error base (S i) <> None ->
  limit = Z.of_nat (S c + k) -> k < fuel -> 
  exists s', single_retry B fuel (Z.of_nat i) limit rf pre s = (s', Raise PipelineError) /\
    deqs s' = (if rf then pushf i (IData d) base else pushf i pre (pushf i (IData d) base)) /\
    nth_error (cycles s') i = Some (S c + k).
Proof.
  induction 1 as [u d|u d u1 k u' Hck Hat Hrest IH];
    intros fuel s i c base q limit rf pre HI He Hc Ha Hu Hd Hbi Hbn Hlim Hf.
  - destruct fuel as [|fuel]; [lia|]. cbn [single_retry]. rewrite py_get_nat, Hc.
    assert (Hnl : (negb (limit =? 0)%Z && (limit <=? Z.of_nat (S c))%Z)%bool = true).
    { apply andb_true_iff. split; [apply negb_true_iff, Z.eqb_neq; lia|apply Z.leb_le; lia]. }
    rewrite Hnl. rewrite Nat.add_0_r. destruct rf.
    + exists s. auto.
    + assert (Hq : nth_error (deqs s) i = Some (IData d :: q)) by (rewrite Hd; now apply pushf_nth).
      rewrite (upd_deq_nat _ _ _ _ Hq). eexists; split; [reflexivity|]. cbn. split; auto.
      rewrite Hd in *. unfold pushf at 2. rewrite Hq. reflexivity.
  - destruct fuel as [|fuel]; [lia|]. cbn [single_retry]. rewrite py_get_nat, Hc.
    assert (Hnl : (negb (limit =? 0)%Z && (limit <=? Z.of_nat (S c))%Z)%bool = false).
    { apply andb_false_iff. right. apply Z.leb_gt. lia. }
    rewrite Hnl.
    destruct (nth_error base (S i)) as [qn|] eqn:Eqn; [|congruence].
    rewrite (step_attempt B s i e d q (S c) qn u1 [d] None); auto.
    2:{ rewrite Hd. now apply pushf_nth. }
    2:{ rewrite Hd. rewrite pushf_ne by lia. auto. }
    2:{ now rewrite Hu. } 2:{ now rewrite Hu. }
    cbv beta iota zeta. set (s1 := sets _ _ _ _).
    assert (Hli : i < length (cycles s)) by (apply nth_error_Some; congruence).
    assert (HI1 : Inv s1).
    { apply sets_inv; rewrite ?set_nth_length; auto. }
    destruct (IH fuel s1 i (S c) base q limit rf pre) as (s' & E & E1 & E2); auto.
    { unfold s1; cbn. apply nth_error_set_nth_eq; auto. }
    { unfold s1; cbn. now rewrite est_insert. }
    { unfold s1, attrs_of; cbn. now rewrite est_insert. }
    { unfold s1; cbn [deqs sets rev List.map app]. rewrite Hd. unfold pushf. rewrite Hbi. apply set_nth_set_nth. }
    { congruence. }
    { lia. } { lia. }
    exists s'. rewrite E. split_and!; auto. rewrite E2. f_equal. lia.
Qed.

Lemma processSingle_stuck s e x u' limit rf fuel q0 : Inv s -> nth_error (elems s) 0 = Some e ->
  e_accs (est B (heap s) e) = [] -> nth_error (cycles s) 0 = Some 0 ->
  nth_error (deqs s) 0 = Some q0 ->
  (0 < limit)%Z -> stuck B e (attrs_of B s e) x (Z.to_nat limit) u' -> Z.to_nat limit <= fuel ->
  exists s', processSingle B fuel (IData x) limit rf s = (s', Raise PipelineError) /\
    nth_error (deqs s') 0 = Some ((if rf then [IData x] else [IData x; IData x]) ++ q0) /\
    (forall j, j <> 0 -> nth_error (deqs s') j = nth_error (deqs s) j).
Proof.
  intros HI He Ha Hc E0 Hlim Hst Hf. unfold processSingle. pose proof HI as (Hl1 & Hl2).
  assert (L0 : 0 < length (elems s)) by (apply nth_error_Some; congruence).
  change 0%Z with (Z.of_nat 0) at 1. rewrite (upd_deq_nat _ _ _ _ E0).
  set (s1 := with_deqs s _).
  assert (Hd1 : deqs s1 = pushf 0 (IData x) (deqs s)) by (unfold s1, pushf; rewrite E0; reflexivity).
  assert (HI1 : Inv s1) by ((apply sets_inv || apply wd_inv); rewrite ?set_nth_length; auto).
  assert (Hq1 : nth_error (deqs s1) 0 = Some (IData x :: q0)) by (rewrite Hd1; now apply pushf_nth).
  destruct (nth_error (deqs s1) 1) as [qn|] eqn:Eqn; [|apply nth_error_None in Eqn; rewrite Hd1, pushf_length in Eqn; lia].
  change (elems s1) with (elems s).
  destruct (length (elems s)) as [|n] eqn:En; [lia|]. cbn [seq single_stages]. rewrite py_get_nat, Hq1.
  destruct (Z.to_nat limit) as [|k] eqn:Ek; [lia|].
  inversion Hst as [|u0 d0 u1 k0 u0' Hck Hat Hrest]; subst.
  rewrite (step_attempt B s1 0 e x q0 0 qn u1 [x] None) by auto.
  cbv beta iota zeta. set (s2 := sets _ _ _ _).
  assert (HI2 : Inv s2) by (apply sets_inv; rewrite ?set_nth_length; auto).
  destruct (single_retry_stuck e u1 x k u' Hrest fuel s2 0 0 (deqs s) q0 limit rf (IData x)) as (s' & E & E1 & E2); auto.
  { unfold s2; cbn. destruct (cycles s); [discriminate|reflexivity]. }
  { unfold s2; cbn. now rewrite est_insert. }
  { unfold s2, attrs_of; cbn. now rewrite est_insert. }
  { unfold s2; cbn [deqs sets rev List.map app]. rewrite Hd1. unfold pushf. rewrite E0. apply set_nth_set_nth. }
  { intros H. apply nth_error_None in H. lia. }
  { lia. }
  rewrite E. exists s'. split; auto. rewrite E1. destruct rf.
  - split; [now rewrite (pushf_nth _ _ _ _ E0)|]. intros j Hj. apply pushf_ne; auto.
  - split; [|intros j Hj; rewrite !pushf_ne by auto; auto].
    rewrite (pushf_nth 0 (IData x) _ (IData x :: q0)); auto. now apply pushf_nth.
Qed.

End Drain.
