(** * PipelineMore: failures, messages, accumulation, draining, processSingle *)
From Coq Require Import List ZArith Lia Bool String.
From stdpp Require Import gmap.
From Verif Require Import PyBase PipelineModel PipelineProofs PipelineLocal PipelineSpec PipelineSched.
Import ListNotations.

Section More.
Context {D U : Type}.
Variable B : @behav D U.
Notation pstate := (@pstate D U).
Notation item := (@item D U).
Notation estate := (@estate D U).
Notation fire := (fire B).
Notation fires := (fires B).
Notation local := (local B).
Notation attempt := (attempt B).

Lemma cycles_some (s : pstate) i e : Inv s -> nth_error (elems s) i = Some e ->
  exists c, nth_error (cycles s) i = Some c.
Proof.
  intros (H1 & H2) He. destruct (nth_error (cycles s) i) eqn:E; eauto.
  apply nth_error_None in E. assert (i < length (elems s)) by (apply nth_error_Some; congruence). lia.
Qed.

(** ** C03 failures *)
Lemma failure_keeps_data s (i : nat) e d q s' x : Inv s ->
  nth_error (elems s) i = Some e -> nth_error (deqs s) i = Some (IData d :: q) ->
  b_check B e (attrs_of B s e) d = true ->
  processStage B (Z.of_nat i) s = (s', Raise x) ->
  exists resaved,
    nth_error (deqs s') i = Some (IData d :: List.map IData resaved ++ q) /\
    (forall j, j <> i -> nth_error (deqs s') j = nth_error (deqs s) j) /\
    elems s' = elems s /\ cycles s' = cycles s /\ nproc s' = nproc s /\
    (forall e', e' <> e -> heap s' !! e' = heap s !! e') /\
    (e_accs (est B (heap s) e) = [] ->
     (forall u, p_resave (b_process B e u d) = [] /\ p_resave (b_interact B e u d) = []) -> resaved = []).
Proof.
  intros HI He Hq Hck Hp. destruct (cycles_some s i e HI He) as [c Hc].
  rewrite (processStage_local B i s e (IData d) q c) in Hp by auto. cbv zeta in Hp.
  pose proof (proj1 HI) as Hlen.
  assert (Li : i < length (elems s)) by (apply nth_error_Some; congruence).
  assert (Key : exists resaved st', apply_l i e q (local e (S i =? length (elems s)) (est B (heap s) e) c (IData d)) s
     = apply_l i e q {| l_st := Some st'; l_c := c; l_pre := IData d :: List.map IData resaved; l_out := [];
                        l_msg := None; l_rv := fun _ => Raise x |} s
    /\ (e_accs (est B (heap s) e) = [] ->
     (forall u, p_resave (b_process B e u d) = [] /\ p_resave (b_interact B e u d) = []) -> resaved = [])).
  { unfold PipelineLocal.local in *. unfold attrs_of in Hck. rewrite Hck in *. cbn [negb] in *.
    set (r := cur_process B e (est B (heap s) e) d) in *.
    assert (Hr : e_accs (est B (heap s) e) = [] -> (forall u, p_resave (b_process B e u d) = [] /\ p_resave (b_interact B e u d) = []) ->
       r_resave r = [] /\ e_accs (r_st r) = []).
    { intros Ha Hn. unfold r, cur_process. rewrite Ha. cbn. split; [apply Hn|auto]. }
    destruct (r_out r) as [[y|]|ex].
    - cbn in Hp. discriminate.
    - set (r2 := cur_interact B e (r_st r) d) in *.
      destruct (r_out r2) as [[y|]|ex]; cbn in Hp; try discriminate.
      injection Hp as Hp Hx. subst x.
      exists (rev (r_resave r2) ++ rev (r_resave r)), (r_st r2). split.
      + cbn. rewrite map_app, !map_rev. reflexivity.
      + intros Ha Hn. destruct (Hr Ha Hn) as (E1 & E2). rewrite E1. unfold r2, cur_interact. rewrite E2. cbn.
        destruct (Hn (e_u (r_st r))) as [_ ->]. reflexivity.
    - cbn in Hp. injection Hp as Hp Hx. subst x. exists (rev (r_resave r)), (r_st r). split.
      + cbn. rewrite map_rev. reflexivity.
      + intros Ha Hn. destruct (Hr Ha Hn) as (E1 & _). now rewrite E1. }
  destruct Key as (resaved & st' & Ek & Hn). rewrite Ek in Hp. clear Ek.
  injection Hp as Hp _. subst s'. exists resaved. cbn [apply_l deqs elems cycles nproc heap l_out l_pre l_c l_st l_msg wr_heap wr_nproc].
  rewrite app_nth_nil. repeat split; auto.
  - rewrite nth_error_set_nth_eq by lia. reflexivity.
  - intros j Hj. rewrite nth_error_set_nth_neq by auto. reflexivity.
  - apply set_nth_same; auto.
  - intros e' Hne. apply lookup_insert_ne; auto.
Qed.

Lemma type_error_drops s (i : nat) e d q : Inv s ->
  nth_error (elems s) i = Some e -> nth_error (deqs s) i = Some (IData d :: q) ->
  b_check B e (attrs_of B s e) d = false ->
  processStage B (Z.of_nat i) s = (with_deqs s (set_nth i q (deqs s)), Raise TypeError).
Proof.
  intros HI He Hq Hck. destruct (cycles_some s i e HI He) as [c Hc].
  rewrite (processStage_local B i s e (IData d) q c) by auto. cbv zeta.
  unfold PipelineLocal.local. unfold attrs_of in Hck. rewrite Hck. cbn [negb l_rv]. f_equal.
  apply pstate_eq; cbn; auto.
  - now apply set_nth_same.
  - now rewrite app_nth_nil.
Qed.

(** ** C04 messages *)
Lemma message_step s (i : nat) e m q : Inv s ->
  nth_error (elems s) i = Some e -> nth_error (deqs s) i = Some (IMsg m :: q) -> quiet_msg m ->
  let last := (S i =? length (elems s)) in
  let '(s', r) := processStage B (Z.of_nat i) s in
  npr (nproc s') (m_id m) = npr (nproc s) (m_id m) + (if targets B m e then 1 else 0) /\
  attrs_of B s' e = (if targets B m e then msg_effect B m e (attrs_of B s e) else attrs_of B s e) /\
  (forall e', e' <> e -> attrs_of B s' e' = attrs_of B s e') /\
  nth_error (deqs s') i = Some q /\
  (last = false -> forall qn, nth_error (deqs s) (S i) = Some qn -> 
     nth_error (deqs s') (S i) = Some (if (targets B m e && negb (to_class m))%bool then qn else qn ++ [IMsg m])) /\
  (last = true -> output s' = output s) /\
  r = (if targets B m e then (if to_class m then Ok RDeliveredPassed else Ok RDelivered)
       else if (last && Nat.eqb (npr (nproc s) (m_id m)) 0)%bool then Raise PipelineError else Ok RPassed).
Proof.
  intros HI He Hq Hm. cbv zeta. destruct (cycles_some s i e HI He) as [c Hc].
  pose proof (proj1 HI) as Hlen.
  assert (Li : i < length (elems s)) by (apply nth_error_Some; congruence).
  rewrite (processStage_local B i s e (IMsg m) q c) by auto. cbv zeta. cbn [msg_id_of].
  assert (Hout : forall l (o : list item), o = [] -> output (apply_l i e q l s) = output (apply_l i e q l s)) by auto. clear Hout.
  assert (Hlast : forall (s1 : pstate) (v : list item), deqs s1 = set_nth i v (deqs s) -> elems s1 = elems s -> output s1 = output s).
  { intros s1 v E Ee. unfold output. rewrite E. clear - Li Hlen.
    revert i Li Hlen. generalize (deqs s) as l, (length (elems s)) as n. clear.
    induction l as [|a l IH]; intros n i Li Hl; [discriminate|].
    destruct l as [|b l]; [simpl in Hl; lia|].
    destruct i as [|i]; [reflexivity|].
    change (set_nth (S i) v (a :: b :: l)) with (a :: set_nth i v (b :: l)).
    destruct n as [|n]; [lia|]. simpl in Hl.
    assert (E : List.last (set_nth i v (b :: l)) [] = List.last (b :: l) []) by (apply (IH n); simpl; lia).
    destruct (set_nth i v (b :: l)) eqn:E2; [|exact E]. destruct i; discriminate. }
  unfold PipelineLocal.local, targets, to_class, isTarget, msg_effect, attrs_of, deliver in *.
  unfold quiet_msg in Hm.
  destruct (m_target m) as [t|k].
  - destruct (Nat.eqb e t) eqn:Et.
    + destruct (m_kind m) as [at_|me|n a f|f] eqn:Ek; try contradiction.
      2: { pose proof (Hm e (e_u (est B (heap s) e))) as Hx.
           destruct (f e (e_u (est B (heap s) e))) as [u' xe]. cbn in Hx. subst xe.
           cbn [l_msg wr_nproc l_rv apply_l nproc heap wr_heap l_st deqs l_pre l_out negb andb fst].
           rewrite npr_insert, app_nth_nil, est_insert. cbn [app e_u].
           repeat split; auto.
           - lia.
           - intros e' Hne. rewrite est_insert_ne by auto. reflexivity.
           - rewrite nth_error_set_nth_eq by lia. reflexivity.
           - intros _ qn Hqn. rewrite nth_error_set_nth_neq by lia. auto.
           - intros _. eapply Hlast; [cbn; rewrite app_nth_nil; reflexivity|reflexivity]. }
      cbn [l_msg wr_nproc l_rv apply_l nproc heap wr_heap l_st deqs l_pre l_out negb andb fst].
      rewrite npr_insert, app_nth_nil, est_insert. cbn [app e_u].
      repeat split; auto.
      * lia.
      * intros e' Hne. rewrite est_insert_ne by auto. reflexivity.
      * rewrite nth_error_set_nth_eq by lia. reflexivity.
      * intros _ qn Hqn. rewrite nth_error_set_nth_neq by lia. auto.
      * intros _. eapply Hlast; [cbn; rewrite app_nth_nil; reflexivity|reflexivity].
    + cbn [l_msg wr_nproc l_rv apply_l nproc heap wr_heap l_st deqs l_pre l_out negb andb fst app].
      repeat split; auto.
      * rewrite nth_error_app_nth_ne by lia. rewrite nth_error_set_nth_eq by lia. reflexivity.
      * intros Hl qn Hqn. rewrite Hl. erewrite nth_error_app_nth_eq; [reflexivity|].
        rewrite nth_error_set_nth_neq by lia. auto.
      * intros Hl. rewrite Hl. eapply Hlast; [cbn; rewrite app_nth_nil; reflexivity|reflexivity].
  - destruct (Nat.eqb (b_class B e) k) eqn:Et.
    + destruct (m_kind m) as [at_|me|n a f|f] eqn:Ek; try contradiction.
      2: { pose proof (Hm e (e_u (est B (heap s) e))) as Hx.
           destruct (f e (e_u (est B (heap s) e))) as [u' xe]. cbn in Hx. subst xe.
           cbn [l_msg wr_nproc l_rv apply_l nproc heap wr_heap l_st deqs l_pre l_out negb andb fst].
           rewrite npr_insert, est_insert. cbn [app e_u].
           repeat split; auto.
           - lia.
           - intros e' Hne. rewrite est_insert_ne by auto. reflexivity.
           - rewrite nth_error_app_nth_ne by lia. rewrite nth_error_set_nth_eq by lia. reflexivity.
           - intros Hl qn Hqn. rewrite Hl. erewrite nth_error_app_nth_eq; [reflexivity|].
             rewrite nth_error_set_nth_neq by lia. auto.
           - intros Hl. rewrite Hl. eapply Hlast; [cbn; rewrite app_nth_nil; reflexivity|reflexivity].
           - destruct (S i =? length (elems s)); reflexivity. }
      cbn [l_msg wr_nproc l_rv apply_l nproc heap wr_heap l_st deqs l_pre l_out negb andb fst].
      rewrite npr_insert, est_insert. cbn [app e_u].
      repeat split; auto.
      * lia.
      * intros e' Hne. rewrite est_insert_ne by auto. reflexivity.
      * rewrite nth_error_app_nth_ne by lia. rewrite nth_error_set_nth_eq by lia. reflexivity.
      * intros Hl qn Hqn. rewrite Hl. erewrite nth_error_app_nth_eq; [reflexivity|].
        rewrite nth_error_set_nth_neq by lia. auto.
      * intros Hl. rewrite Hl. eapply Hlast; [cbn; rewrite app_nth_nil; reflexivity|reflexivity].
      * destruct (S i =? length (elems s)); reflexivity.
    + cbn [l_msg wr_nproc l_rv apply_l nproc heap wr_heap l_st deqs l_pre l_out negb andb fst app].
      repeat split; auto.
      * rewrite nth_error_app_nth_ne by lia. rewrite nth_error_set_nth_eq by lia. reflexivity.
      * intros Hl qn Hqn. rewrite Hl. erewrite nth_error_app_nth_eq; [reflexivity|].
        rewrite nth_error_set_nth_neq by lia. auto.
      * intros Hl. rewrite Hl. eapply Hlast; [cbn; rewrite app_nth_nil; reflexivity|reflexivity].
Qed.

(** the flow of one message through an otherwise empty pipeline *)
Lemma flow_message : forall es us dqs m, NoDup es -> length us = length es -> length dqs = S (length es) ->
  (forall i, i < length es -> nth_error dqs i = Some []) ->
  exists o, flow B es us dqs [IMsg m] =
   (zip_with (fun e u => if targets B m e then msg_effect B m e u else u) es us, o) /\
   (es <> [] -> o = List.last dqs []).
Proof.
  assert (Hnone : forall es us dqs, length us = length es -> length dqs = S (length es) ->
    (forall i, i < length es -> nth_error dqs i = Some []) ->
    flow B es us dqs [] = (us, List.last dqs [])).
  { induction es as [|e es IH]; intros us dqs Hu Hl Hd.
    - destruct us; [|simpl in *; lia]. destruct dqs as [|q [|]]; try (simpl in *; lia). cbn. now rewrite app_nil_r.
    - destruct us as [|u us]; [simpl in *; lia|]. destruct dqs as [|q dqs]; [simpl in *; lia|].
      assert (q = []) as -> by (specialize (Hd 0 ltac:(simpl; lia)); simpl in Hd; congruence).
      cbn [flow app stage_run]. rewrite IH.
      + destruct dqs; [simpl in *; lia|reflexivity].
      + simpl in Hu; lia.
      + simpl in Hl; lia.
      + intros i Hi. apply (Hd (S i)). simpl; lia. }
  induction es as [|e es IH]; intros us dqs m HN Hu Hl Hd.
  - destruct us; [|simpl in *; lia]. destruct dqs as [|q [|]]; try (simpl in *; lia).
    eexists. split; [reflexivity|congruence].
  - destruct us as [|u us]; [simpl in *; lia|]. destruct dqs as [|q dqs]; [simpl in *; lia|].
    assert (q = []) as -> by (specialize (Hd 0 ltac:(simpl; lia)); simpl in Hd; congruence).
    apply NoDup_cons in HN as [Hnin HN].
    assert (Hd' : forall i, i < length es -> nth_error dqs i = Some []) by (intros i Hi; apply (Hd (S i)); simpl; lia).
    simpl in Hu, Hl. assert (Hlast : List.last ([] :: dqs) [] = List.last dqs []) by (destruct dqs; [simpl in *; lia|reflexivity]).
    rewrite Hlast.
    cbn [flow app stage_run stage_in zip_with].
    destruct (targets B m e) eqn:Et.
    + destruct (to_class m) eqn:Ec.
      * destruct es as [|e1 es].
        -- cbn [negb andb app]. rewrite Hnone by (simpl; auto; lia).
           eexists; split; [|reflexivity]. destruct us; [reflexivity|simpl in *; lia].
        -- cbn [negb andb app]. destruct (IH us dqs m HN ltac:(lia) ltac:(lia) Hd') as (o & Eo & Ho).
           rewrite Eo. eexists; split; [reflexivity|]. intros _. apply Ho. discriminate.
      * cbn [andb app]. rewrite Hnone by (auto; lia).
        eexists; split; [|reflexivity]. f_equal. f_equal.
        (* no later element is the target *)
        unfold targets, to_class in *. destruct (m_target m) as [t|]; [|discriminate].
        apply Nat.eqb_eq in Et. subst t. clear -Hnin Hu.
        revert us Hu Hnin. induction es as [|e1 es IH]; intros us Hu Hnin; destruct us as [|u1 us]; try (simpl in *; lia); auto.
        simpl. apply not_elem_of_cons in Hnin as [Hne Hnin].
        destruct (Nat.eqb_spec e1 e); [congruence|]. f_equal. apply IH; auto.
    + destruct es as [|e1 es].
      * cbn [app]. rewrite Hnone by (simpl; auto; lia).
        eexists; split; [|reflexivity]. destruct us; [reflexivity|simpl in *; lia].
      * cbn [app]. destruct (IH us dqs m HN ltac:(lia) ltac:(lia) Hd') as (o & Eo & Ho).
        rewrite Eo. eexists; split; [reflexivity|]. intros _. apply Ho. discriminate.
Qed.

Lemma zip_with_map_r {X Y Z} (f : X -> Y -> Z) (g : X -> Y) l :
  zip_with f l (List.map g l) = List.map (fun x => f x (g x)) l.
Proof. induction l; simpl; congruence. Qed.

Lemma message_broadcast s acts m : good B s -> drained s -> quiet_msg m -> elems s <> [] ->
  fed acts = [IMsg m] -> drained (fst (run_acts B s acts)) ->
  let '(s', ex) := run_acts B s acts in
  (forall e, In e (elems s) ->
     attrs_of B s' e = if targets B m e then msg_effect B m e (attrs_of B s e) else attrs_of B s e)
  /\ ex ++ output s' = output s.
Proof.
  intros Hg Hd Hm Hne Hf Hd'.
  pose proof (pipeline_stream B s acts Hg) as HS. rewrite Hf in HS.
  specialize (HS ltac:(intros x [<-|[]]; exact Hm) Hd').
  destruct (run_acts B s acts) as [s' ex]. cbn in Hd'.
  destruct Hg as (HI & HN & _).
  destruct (flow_message (elems s) (List.map (attrs_of B s) (elems s)) (deqs s) m HN) as (o & Eo & Ho).
  { now rewrite map_length. } { apply HI. } { exact Hd. }
  rewrite Eo in HS. injection HS as H1 H2. split.
  - intros e Hin. rewrite zip_with_map_r in H1.
    clear -H1 Hin. induction (elems s) as [|a l IH]; [contradiction|].
    simpl in H1. injection H1 as Ha Hl. destruct Hin as [->|Hin]; auto.
  - rewrite H2. apply Ho. auto.
Qed.

Lemma callmethod_fails s (i : nat) e m meth q : Inv s ->
  nth_error (elems s) i = Some e -> nth_error (deqs s) i = Some (IMsg m :: q) ->
  m_kind m = MCall meth -> targets B m e = true ->
  exists s', processStage B (Z.of_nat i) s = (s', Raise (if b_hasmeth B e meth then NameError else AttributeError))
    /\ nth_error (deqs s') i = Some q /\ attrs_of B s' e = attrs_of B s e.
Proof.
  intros HI He Hq Hk Ht. destruct (cycles_some s i e HI He) as [c Hc].
  pose proof (proj1 HI) as Hlen.
  assert (Li : i < length (elems s)) by (apply nth_error_Some; congruence).
  rewrite (processStage_local B i s e (IMsg m) q c) by auto. cbv zeta.
  unfold PipelineLocal.local, isTarget, targets, deliver, attrs_of in *. rewrite Hk.
  destruct (m_target m) as [t|k]; rewrite Ht; cbn;
    (eexists; split; [reflexivity|]; cbn; rewrite app_nth_nil, nth_error_set_nth_eq, est_insert by lia; auto).
Qed.

(** ** C05 accumulation *)

(** the state after [got] has been collected, [n] still to come *)
Lemma accumulate_loop ds : forall s (i : nat) e c rest a accs u got, Inv s ->
  nth_error (elems s) i = Some e ->
  nth_error (deqs s) i = Some (List.map IData ds ++ rest) ->
  nth_error (cycles s) i = Some c ->
  est B (heap s) e = {| e_u := u; e_accs := {| a_n := Z.of_nat (length got + length ds); a_attr := a_attr a;
                                              a_filter := a_filter a; a_got := got |} :: accs; e_hasacc := true |} ->
  ds <> [] ->
  (forall d, In d ds -> b_check B e u d = true) ->
  forall v, (match a_filter a with None => Ok (b_oflist B (got ++ ds)) | Some f => f (got ++ ds) end) = Ok v ->
  let s' := fires s (repeat i (length ds)) in
  deqs s' = set_nth i ((match a_attr a with None => [IData v] | Some _ => [] end) ++ rest) (deqs s) /\
  cycles s' = set_nth i (c + length ds) (cycles s) /\
  est B (heap s') e = {| e_u := match a_attr a with None => u | Some nm => b_setattr B u nm v end;
                         e_accs := accs; e_hasacc := false |} /\
  (forall e', e' <> e -> heap s' !! e' = heap s !! e') /\ nproc s' = nproc s /\ elems s' = elems s.
Proof.
  induction ds as [|d ds IH]; intros s i e c rest a accs u got HI He Hq Hc Hst Hne Hck v Hv; [congruence|].
  cbv zeta. cbn [repeat length PipelineSched.fires].
  pose proof (proj1 HI) as Hlen. pose proof (proj2 HI) as Hlc.
  assert (Li : i < length (elems s)) by (apply nth_error_Some; congruence).
  cbn [List.map app] in Hq.
  assert (Ef : fire i s = apply_l i e (List.map IData ds ++ rest)
     (local e (S i =? length (elems s)) (est B (heap s) e) c (IData d)) s).
  { unfold PipelineLocal.fire. rewrite He, Hq, Hc. reflexivity. }
  unfold PipelineLocal.local in Ef. rewrite Hst in Ef. cbn [e_u] in Ef.
  rewrite (Hck d) in Ef by (left; auto). cbn [negb] in Ef.
  unfold cur_process in Ef. cbn [e_accs a_got a_n] in Ef.
  assert (Hlt : (Z.of_nat (length got) <? Z.of_nat (length got + length (d :: ds)))%Z = true)
    by (apply Z.ltb_lt; simpl; lia).
  rewrite Hlt in Ef. cbn [r_out r_st r_resave] in Ef. unfold cur_interact in Ef. cbn [e_accs a_got a_n] in Ef.
  rewrite app_length in Ef. cbn [length] in Ef.
  destruct ds as [|d' ds].
  - (* last one: finish *)
    cbn [length] in Ef. rewrite Z.eqb_refl in Ef.
    cbn [length repeat PipelineSched.fires]. unfold finish in Ef. cbn [a_filter a_attr a_got e_hasacc e_u] in Ef.
    rewrite Hv in Ef.
    destruct (a_attr a) as [nm|]; cbn [r_out r_resave r_st rev List.map app] in Ef; rewrite Ef;
      cbn [apply_l deqs cycles heap nproc elems l_out l_pre l_c l_st l_msg wr_heap wr_nproc app].
    + rewrite app_nth_nil. repeat split; auto.
      * f_equal. lia.
      * rewrite est_insert. reflexivity.
      * intros e' Hn. apply lookup_insert_ne; auto.
    + rewrite app_nth_nil. repeat split; auto.
      * f_equal. lia.
      * rewrite est_insert. reflexivity.
      * intros e' Hn. apply lookup_insert_ne; auto.
  - assert (Hneq : (Z.of_nat (length got + 1) =? Z.of_nat (length got + S (length (d' :: ds))))%Z = false)
      by (apply Z.eqb_neq; simpl; lia).
    rewrite Hneq in Ef. cbn [r_out r_st r_resave rev List.map app] in Ef.
    set (s1 := fire i s) in *.
    assert (HI1 : Inv s1) by (unfold s1; now apply fire_inv).
    destruct (IH s1 i e (S c) rest a accs u (got ++ [d])) with (v := v) as (A1 & A2 & A3 & A4 & A5 & A6); auto.
    + rewrite Ef. exact He.
    + rewrite Ef. cbn [apply_l deqs l_out l_pre]. rewrite app_nth_nil, nth_error_set_nth_eq by lia. reflexivity.
    + rewrite Ef. cbn [apply_l cycles l_c]. apply nth_error_set_nth_eq. lia.
    + rewrite Ef. cbn [apply_l heap l_st wr_heap]. rewrite est_insert. f_equal. f_equal. f_equal.
      rewrite app_length. simpl. lia.
    + intros d0 Hd0. apply Hck. now right.
    + rewrite <- app_assoc. exact Hv.
    + rewrite A1, A2, A3, A5, A6. rewrite Ef in A4 |- *. cbn [apply_l deqs cycles l_out l_pre l_c nproc elems wr_nproc l_msg].
      rewrite app_nth_nil, !set_nth_set_nth. repeat split; auto.
      * f_equal. simpl. lia.
      * intros e' Hn. rewrite A4 by auto. cbn. apply lookup_insert_ne; auto.
Qed.

Lemma accumulate s (i : nat) e c m n a f ds rest v : Inv s ->
  nth_error (elems s) i = Some e ->
  nth_error (deqs s) i = Some (IMsg m :: List.map IData ds ++ rest) ->
  nth_error (cycles s) i = Some c ->
  m_target m = TObj e -> m_kind m = MAccum n a f -> n = Z.of_nat (length ds) -> ds <> [] ->
  (forall d, In d ds -> b_check B e (attrs_of B s e) d = true) ->
  (match f with None => Ok (b_oflist B ds) | Some g => g ds end) = Ok v ->
  let s' := fires s (repeat i (S (length ds))) in
  deqs s' = set_nth i ((match a with None => [IData v] | Some _ => [] end) ++ rest) (deqs s) /\
  est B (heap s') e = {| e_u := match a with None => attrs_of B s e | Some nm => b_setattr B (attrs_of B s e) nm v end;
                         e_accs := e_accs (est B (heap s) e); e_hasacc := false |} /\
  cycles s' = set_nth i (c + length ds) (cycles s) /\
  (forall e', e' <> e -> heap s' !! e' = heap s !! e') /\ elems s' = elems s.
Proof.
  intros HI He Hq Hc Ht Hk Hn Hne Hck Hv. cbv zeta. cbn [repeat PipelineSched.fires].
  pose proof (proj1 HI) as Hlen. pose proof (proj2 HI) as Hlc.
  assert (Li : i < length (elems s)) by (apply nth_error_Some; congruence).
  assert (Ef : fire i s = apply_l i e (List.map IData ds ++ rest)
     (local e (S i =? length (elems s)) (est B (heap s) e) c (IMsg m)) s).
  { unfold PipelineLocal.fire. rewrite He, Hq, Hc. reflexivity. }
  unfold PipelineLocal.local, isTarget, deliver in Ef. rewrite Ht, Hk, Nat.eqb_refl in Ef.
  set (s1 := fire i s) in *. assert (HI1 : Inv s1) by (unfold s1; now apply fire_inv).
  destruct (accumulate_loop ds s1 i e c rest {| a_n := n; a_attr := a; a_filter := f; a_got := [] |}
     (e_accs (est B (heap s) e)) (attrs_of B s e) []) with (v := v) as (A1 & A2 & A3 & A4 & A5 & A6); auto.
  - rewrite Ef. exact He.
  - rewrite Ef. cbn [apply_l deqs l_out l_pre app]. rewrite app_nth_nil, nth_error_set_nth_eq by lia. reflexivity.
  - rewrite Ef. cbn [apply_l cycles l_c]. apply nth_error_set_nth_eq. lia.
  - rewrite Ef. cbn [apply_l heap l_st wr_heap]. rewrite est_insert. cbn. rewrite Hn. reflexivity.
  - cbn [a_attr a_filter] in *. rewrite A1, A2, A3, A6. rewrite Ef in A4 |- *.
    cbn [apply_l deqs cycles l_out l_pre l_c nproc elems wr_nproc l_msg app].
    rewrite app_nth_nil, !set_nth_set_nth. repeat split; auto.
    intros e' Hne'. rewrite A4 by auto. cbn. apply lookup_insert_ne; auto.
Qed.

(** ** Data steps in terms of [attempt] *)
Lemma local_attempt e last st c d u' rs o : e_accs st = [] -> b_check B e (e_u st) d = true ->
  attempt e (e_u st) d = (u', rs, o) ->
  let L := local e last st c (IData d) in
  l_st L = Some {| e_u := u'; e_accs := []; e_hasacc := e_hasacc st |} /\ l_msg L = None /\
  match o with
  | ORet (Some y) => l_c L = 0 /\ l_pre L = rev (List.map IData rs) /\ l_out L = [y] /\ l_rv L = (fun _ => Ok RTrue)
  | ORet None => l_c L = S c /\ l_pre L = rev (List.map IData rs) /\ l_out L = [] /\ l_rv L = (fun _ => Ok RFalse)
  | OExn x => l_c L = c /\ l_pre L = IData d :: rev (List.map IData rs) /\ l_out L = [] /\ l_rv L = (fun _ => Raise x)
  end.
Proof.
  intros Ha Hck Hat. cbv zeta. unfold PipelineLocal.local. rewrite Hck. cbn [negb].
  unfold cur_process, cur_interact, PipelineSpec.attempt in *. rewrite Ha. cbn [lift r_out r_st r_resave e_accs e_u].
  rewrite Ha. cbn [lift r_out r_st r_resave e_accs e_u].
  destruct (p_out (b_process B e (e_u st) d)) as [[y|]|x] eqn:E.
  - inversion Hat; subst. cbn. split_and!; auto.
  - inversion Hat; subst. rewrite map_app, rev_app_distr.
    destruct (p_out (b_interact B e (p_u (b_process B e (e_u st) d)) d)) as [[y|]|x]; cbn;
      split_and!; auto.
  - inversion Hat; subst. cbn. split_and!; auto.
Qed.

Definition sets (s : pstate) (c : list nat) (q : list (list item)) (h : gmap nat estate) : pstate :=
  {| elems := elems s; cycles := c; deqs := q; heap := h; nproc := nproc s |}.

Lemma step_attempt s (i : nat) e d q c qn u' rs o : Inv s -> nth_error (elems s) i = Some e ->
  nth_error (deqs s) i = Some (IData d :: q) -> nth_error (deqs s) (S i) = Some qn ->
  nth_error (cycles s) i = Some c ->
  e_accs (est B (heap s) e) = [] -> b_check B e (attrs_of B s e) d = true ->
  attempt e (attrs_of B s e) d = (u', rs, ORet o) ->
  let h' := <[e := {| e_u := u'; e_accs := []; e_hasacc := e_hasacc (est B (heap s) e) |}]> (heap s) in
  processStage B (Z.of_nat i) s =
  match o with
  | Some y => (sets s (set_nth i 0 (cycles s)) (set_nth (S i) (qn ++ [y]) (set_nth i (rev (List.map IData rs) ++ q) (deqs s))) h', Ok RTrue)
  | None => (sets s (set_nth i (S c) (cycles s)) (set_nth i (rev (List.map IData rs) ++ q) (deqs s)) h', Ok RFalse)
  end.
Proof.
  intros HI He Hq Hqn Hc Ha Hck Hat. cbv zeta.
  rewrite (processStage_local B i s e (IData d) q c) by auto. cbv zeta.
  pose proof (local_attempt e (S i =? length (elems s)) (est B (heap s) e) c d u' rs (ORet o) Ha Hck Hat) as HL.
  cbv zeta in HL. set (L := local e (S i =? length (elems s)) (est B (heap s) e) c (IData d)) in *.
  destruct HL as (E1 & E2 & HL).
  destruct o as [y|]; destruct HL as (E3 & E4 & E5 & E6); rewrite E6; unfold apply_l; rewrite E1, E2, E3, E4, E5;
    cbn [wr_heap wr_nproc]; f_equal; unfold sets; f_equal.
  - unfold app_nth. rewrite nth_error_set_nth_neq, Hqn by lia. reflexivity.
  - apply app_nth_nil.
Qed.

End More.
