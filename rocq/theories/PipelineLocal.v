(** * PipelineLocal: processStage acts locally on one stage *)
From Coq Require Import List ZArith Lia Bool String.
From stdpp Require Import gmap.
From Verif Require Import PyBase PipelineModel PipelineProofs.
Import ListNotations.

Section Local.
Context {D U : Type}.
Variable B : @behav D U.
Notation pstate := (@pstate D U).
Notation item := (@item D U).
Notation estate := (@estate D U).

(** What one call of processStage does to its stage, given only the stage's
    own element state, cycle counter and next input. *)
Record lres := {
  l_st : option estate;        (* new element state, if written *)
  l_c : nat;                   (* new cycle counter *)
  l_pre : list item;           (* pushed back in front of the own queue *)
  l_out : list item;           (* appended to the next queue *)
  l_msg : option nat;          (* message whose counter is incremented *)
  l_rv : nat -> res rv }.      (* result, given the message counter afterwards *)

Definition local (e : nat) (last : bool) (st : estate) (c : nat) (x : item) : lres :=
  match x with
  | IMsg m =>
      let passed rc n := if (last && Nat.eqb n 0)%bool then Raise PipelineError else Ok rc in
      match isTarget B m e with
      | None => {| l_st := None; l_c := c; l_pre := []; l_out := if last then [] else [x];
                   l_msg := None; l_rv := passed RPassed |}
      | Some b =>
          let '(st', xe) := deliver B m e st in
          match xe with
          | Some ex => {| l_st := Some st'; l_c := c; l_pre := []; l_out := [];
                          l_msg := Some (m_id m); l_rv := fun _ => Raise ex |}
          | None =>
              if b then {| l_st := Some st'; l_c := c; l_pre := [];
                           l_out := if last then [] else [x];
                           l_msg := Some (m_id m); l_rv := passed RDeliveredPassed |}
              else {| l_st := Some st'; l_c := c; l_pre := []; l_out := [];
                      l_msg := Some (m_id m); l_rv := fun _ => Ok RDelivered |}
          end
      end
  | IData d =>
      if negb (b_check B e (e_u st) d) then
        {| l_st := None; l_c := c; l_pre := []; l_out := []; l_msg := None;
           l_rv := fun _ => Raise TypeError |}
      else
      let r := cur_process B e st d in
      let pre1 := rev (List.map IData (r_resave r)) in
      match r_out r with
      | OExn ex => {| l_st := Some (r_st r); l_c := c; l_pre := x :: pre1; l_out := [];
                      l_msg := None; l_rv := fun _ => Raise ex |}
      | ORet (Some y) => {| l_st := Some (r_st r); l_c := 0; l_pre := pre1; l_out := [y];
                            l_msg := None; l_rv := fun _ => Ok RTrue |}
      | ORet None =>
          let r2 := cur_interact B e (r_st r) d in
          let pre2 := rev (List.map IData (r_resave r2)) ++ pre1 in
          match r_out r2 with
          | OExn ex => {| l_st := Some (r_st r2); l_c := c; l_pre := x :: pre2; l_out := [];
                          l_msg := None; l_rv := fun _ => Raise ex |}
          | ORet (Some y) => {| l_st := Some (r_st r2); l_c := 0; l_pre := pre2; l_out := [y];
                                l_msg := None; l_rv := fun _ => Ok RTrue |}
          | ORet None => {| l_st := Some (r_st r2); l_c := S c; l_pre := pre2; l_out := [];
                            l_msg := None; l_rv := fun _ => Ok RFalse |}
          end
      end
  end.

Definition app_nth (k : nat) (ys : list item) (l : list (list item)) : list (list item) :=
  match nth_error l k with
  | Some q => set_nth k (q ++ ys) l
  | None => l
  end.

Definition wr_heap (e : nat) (o : option estate) (h : gmap nat estate) : gmap nat estate :=
  match o with Some st => <[e := st]> h | None => h end.
Definition wr_nproc (o : option nat) (n : gmap nat nat) : gmap nat nat :=
  match o with Some m => <[m := S (npr n m)]> n | None => n end.

Definition apply_l (i e : nat) (q : list item) (L : lres) (s : pstate) : pstate :=
  {| elems := elems s;
     cycles := set_nth i (l_c L) (cycles s);
     deqs := app_nth (S i) (l_out L) (set_nth i (l_pre L ++ q) (deqs s));
     heap := wr_heap e (l_st L) (heap s);
     nproc := wr_nproc (l_msg L) (nproc s) |}.

Definition fire (i : nat) (s : pstate) : pstate :=
  match nth_error (elems s) i, nth_error (deqs s) i, nth_error (cycles s) i with
  | Some e, Some (x :: q), Some c =>
      apply_l i e q (local e (S i =? length (elems s)) (est B (heap s) e) c x) s
  | _, _, _ => s
  end.

Definition msg_id_of (x : item) : nat := match x with IMsg m => m_id m | IData _ => 0 end.

Lemma pstate_eq (s s' : pstate) : elems s = elems s' -> cycles s = cycles s' ->
  deqs s = deqs s' -> heap s = heap s' -> nproc s = nproc s' -> s = s'.
Proof. destruct s, s'; simpl; intros; subst; reflexivity. Qed.

Lemma app_nth_nil k (l : list (list item)) : app_nth k [] l = l.
Proof.
  unfold app_nth. destruct (nth_error l k) eqn:E; auto. rewrite app_nil_r. now apply set_nth_same.
Qed.

Lemma resave_nat (i : nat) ds (s : pstate) q : nth_error (deqs s) i = Some q ->
  resave (Z.of_nat i) ds s = Some (with_deqs s (set_nth i (rev (List.map IData ds) ++ q) (deqs s))).
Proof.
  unfold resave. revert s q; induction ds as [|d ds IH]; intros s q H; cbn [fold_left].
  - simpl. f_equal. rewrite set_nth_same by auto. destruct s; reflexivity.
  - rewrite (upd_deq_nat _ _ _ _ H).
    erewrite IH. 2:{ cbn [deqs with_deqs]. apply nth_error_set_nth_eq. apply nth_error_Some; congruence. }
    cbn [deqs with_deqs]. rewrite set_nth_set_nth. simpl.
    rewrite <- app_assoc. reflexivity.
Qed.

Lemma run_call_nat (i e : nat) r (s : pstate) q : nth_error (deqs s) i = Some q ->
  run_call (Z.of_nat i) e r s =
  Some (with_deqs (with_heap s (<[e := r_st r]> (heap s)))
                  (set_nth i (rev (List.map IData (r_resave r)) ++ q) (deqs s))).
Proof. intros H. unfold run_call. erewrite resave_nat; eauto. Qed.

Lemma put_back_nat (i : nat) d x (s : pstate) q : nth_error (deqs s) i = Some q ->
  put_back (Z.of_nat i) d x s = (with_deqs s (set_nth i (IData d :: q) (deqs s)), Raise x).
Proof. intros H. unfold put_back. erewrite upd_deq_nat; eauto. Qed.

Lemma pass_on_nat (i : nat) d y (s : pstate) : S i < length (deqs s) -> i < length (cycles s) ->
  pass_on (Z.of_nat i) d y s =
  (with_cycles (with_deqs s (app_nth (S i) [y] (deqs s))) (set_nth i 0 (cycles s)), Ok RTrue).
Proof.
  intros H1 H2. unfold pass_on. replace (Z.of_nat i + 1)%Z with (Z.of_nat (S i)) by lia.
  destruct (nth_error (deqs s) (S i)) as [q|] eqn:E; [|apply nth_error_None in E; lia].
  erewrite upd_deq_nat; eauto. cbn [cycles with_deqs].
  rewrite py_set_nat by auto. unfold app_nth. rewrite E. reflexivity.
Qed.

Lemma est_insert h e st : est B (<[e := st]> h) e = st.
Proof. unfold est. rewrite lookup_insert. reflexivity. Qed.
Lemma est_insert_ne h e e' st : e <> e' -> est B (<[e := st]> h) e' = est B h e'.
Proof. intros H. unfold est. rewrite lookup_insert_ne; auto. Qed.
Lemma npr_insert n m v : npr (<[m := v]> n) m = v.
Proof. unfold npr. rewrite lookup_insert. reflexivity. Qed.
Lemma npr_insert_ne n m m' v : m <> m' -> npr (<[m := v]> n) m' = npr n m'.
Proof. intros. unfold npr. rewrite lookup_insert_ne; auto. Qed.

(** The characterisation of processStage at an in-range stage. *)
Lemma processStage_local (i : nat) (s : pstate) e x q c : Inv s ->
  nth_error (elems s) i = Some e -> nth_error (deqs s) i = Some (x :: q) ->
  nth_error (cycles s) i = Some c ->
  let L := local e (S i =? length (elems s)) (est B (heap s) e) c x in
  processStage B (Z.of_nat i) s =
    (apply_l i e q L s, l_rv L (npr (wr_nproc (l_msg L) (nproc s)) (msg_id_of x))).
Proof.
  intros (H1 & H2) He Hq Hc. cbv zeta.
  assert (Li : i < length (elems s)) by (apply nth_error_Some; congruence).
  unfold processStage. rewrite !py_get_nat, He, Hq.
  rewrite py_set_nat by lia. set (s1 := with_deqs s (set_nth i q (deqs s))). cbv zeta.
  assert (Hq1 : nth_error (deqs s1) i = Some q) by (apply nth_error_set_nth_eq; lia).
  change (heap s1) with (heap s).
  destruct x as [d|m].
  - unfold local. destruct (b_check B e (e_u (est B (heap s) e)) d) eqn:Ck; cbn [negb].
    2:{ f_equal. apply pstate_eq; simpl; auto.
        - now rewrite set_nth_same.
        - now rewrite app_nth_nil. }
    rewrite (run_call_nat i e _ s1 q Hq1). 
    set (r := cur_process B e (est B (heap s) e) d).
    set (s2 := with_deqs _ _). 
    assert (Hq2 : nth_error (deqs s2) i = Some (rev (List.map IData (r_resave r)) ++ q)).
    { subst s2. cbn [deqs with_deqs]. apply nth_error_set_nth_eq. subst s1; cbn. rewrite set_nth_length; lia. }
    assert (L2 : length (deqs s2) = length (deqs s)).
    { subst s2 s1. cbn. now rewrite !set_nth_length. }
    assert (D2 : deqs s2 = set_nth i (rev (List.map IData (r_resave r)) ++ q) (deqs s)).
    { subst s2 s1. cbn. now rewrite set_nth_set_nth. }
    assert (Hs2 : heap s2 = <[e := r_st r]> (heap s)) by reflexivity.
    assert (Cs2 : cycles s2 = cycles s) by reflexivity.
    assert (Es2 : elems s2 = elems s) by reflexivity.
    assert (Ns2 : nproc s2 = nproc s) by reflexivity.
    clearbody s2.
    destruct (r_out r) as [[y|]|ex].
    + rewrite pass_on_nat by (rewrite ?Cs2; lia). f_equal.
      apply pstate_eq; cbn; rewrite ?Cs2; auto. now rewrite D2.
    + rewrite (run_call_nat i e _ s2 _ Hq2).
      rewrite Hs2, est_insert.
      set (r2 := cur_interact B e (r_st r) d).
      set (s3 := with_deqs _ _).
      assert (D3 : deqs s3 = set_nth i ((rev (List.map IData (r_resave r2)) ++ rev (List.map IData (r_resave r))) ++ q) (deqs s)).
      { subst s3. cbn. rewrite D2, set_nth_set_nth, app_assoc. reflexivity. }
      assert (Hs3 : heap s3 = <[e := r_st r2]> (heap s)).
      { subst s3. cbn. rewrite insert_insert. reflexivity. }
      assert (Cs3 : cycles s3 = cycles s) by auto.
      assert (Es3 : elems s3 = elems s) by auto.
      assert (Ns3 : nproc s3 = nproc s) by auto.
      assert (L3 : length (deqs s3) = length (deqs s)).
      { rewrite D3. now rewrite !set_nth_length. }
      clearbody s3.
      assert (Hq3 : nth_error (deqs s3) i = Some ((rev (List.map IData (r_resave r2)) ++ rev (List.map IData (r_resave r))) ++ q)).
      { rewrite D3. apply nth_error_set_nth_eq; lia. }
      destruct (r_out r2) as [[y|]|ex].
      * rewrite pass_on_nat by (rewrite ?Cs3; lia). f_equal.
        apply pstate_eq; cbn; rewrite ?Cs3; auto. now rewrite D3.
      * rewrite py_get_nat, Cs3, Hc. rewrite py_set_nat by lia. cbn [l_rv l_st l_pre l_c l_out l_msg].
        f_equal. apply pstate_eq; cbn; auto. now rewrite D3, app_nth_nil.
      * rewrite (put_back_nat _ _ _ _ _ Hq3). cbn [l_rv]. f_equal.
        apply pstate_eq; cbn; rewrite ?Cs3; auto.
        -- now rewrite set_nth_same.
        -- rewrite D3, set_nth_set_nth, app_nth_nil. reflexivity.
    + rewrite (put_back_nat _ _ _ _ _ Hq2). cbn [l_rv]. f_equal.
      apply pstate_eq; cbn; rewrite ?Cs2; auto.
      -- now rewrite set_nth_same.
      -- rewrite D2, set_nth_set_nth, app_nth_nil. reflexivity.
  - assert (Hlast : (Z.of_nat i =? Z.of_nat (length (elems s)) - 1)%Z = (S i =? length (elems s))).
    { destruct (Z.eqb_spec (Z.of_nat i) (Z.of_nat (length (elems s)) - 1)); destruct (Nat.eqb_spec (S i) (length (elems s))); auto; lia. }
    replace (Z.of_nat i + 1)%Z with (Z.of_nat (S i)) by lia.
    assert (Hn : forall s2, deqs s2 = set_nth i q (deqs s) -> exists qn, nth_error (deqs s2) (S i) = Some qn).
    { intros s2 E2. destruct (nth_error (deqs s2) (S i)) eqn:E; eauto. apply nth_error_None in E.
      rewrite E2, set_nth_length in E. lia. }
    unfold local. cbn [msg_id_of].
    destruct (isTarget B m e) as [b|].
    + cbn [heap nproc with_nproc with_deqs s1].
      destruct (deliver B m e (est B (heap s) e)) as [st' [xe|]].
      * f_equal. apply pstate_eq; cbn; auto.
        -- now rewrite set_nth_same.
        -- now rewrite app_nth_nil.
      * destruct b.
        -- set (s2 := with_heap _ _). change (elems s2) with (elems s). rewrite Hlast.
           destruct (S i =? length (elems s)) eqn:El.
           ++ cbn [andb l_rv l_msg wr_nproc]. change (nproc s2) with (<[m_id m:=S (npr (nproc s) (m_id m))]> (nproc s)).
              rewrite npr_insert. cbn.
              f_equal. apply pstate_eq; cbn; auto.
              --- now rewrite set_nth_same.
              --- now rewrite app_nth_nil.
           ++ destruct (Hn s2 eq_refl) as [qn Eqn]. rewrite (upd_deq_nat _ _ _ _ Eqn). cbn [andb l_rv].
              f_equal. apply pstate_eq; cbn; auto.
              --- now rewrite set_nth_same.
              --- unfold app_nth. change (deqs s2) with (set_nth i q (deqs s)) in *.
                  rewrite Eqn. reflexivity.
        -- f_equal. apply pstate_eq; cbn; auto.
           ++ now rewrite set_nth_same.
           ++ now rewrite app_nth_nil.
    + change (elems s1) with (elems s). rewrite Hlast.
      destruct (S i =? length (elems s)) eqn:El.
      * cbn [andb l_rv l_msg wr_nproc]. change (nproc s1) with (nproc s).
        assert (Hs1 : s1 = apply_l i e q
          {| l_st := None; l_c := c; l_pre := []; l_out := []; l_msg := None;
             l_rv := fun n => if Nat.eqb n 0 then Raise PipelineError else Ok RPassed |} s).
        { apply pstate_eq; cbn; auto.
          - now rewrite set_nth_same.
          - now rewrite app_nth_nil. }
        rewrite Hs1. destruct (Nat.eqb (npr (nproc s) (m_id m)) 0); reflexivity.
      * destruct (Hn s1 eq_refl) as [qn Eqn]. rewrite (upd_deq_nat _ _ _ _ Eqn). cbn [andb l_rv].
        f_equal. apply pstate_eq; cbn; auto.
        -- now rewrite set_nth_same.
        -- unfold app_nth. change (deqs s1) with (set_nth i q (deqs s)) in *. rewrite Eqn. reflexivity.
Qed.

Lemma processStage_disabled (i : nat) (s : pstate) :
  (nth_error (elems s) i = None \/ nth_error (deqs s) i = None \/ nth_error (deqs s) i = Some []) ->
  processStage B (Z.of_nat i) s = (s, Raise IndexError).
Proof.
  intros H. unfold processStage. rewrite !py_get_nat.
  destruct (nth_error (elems s) i) as [e|]; auto.
  destruct (nth_error (deqs s) i) as [[|x q]|]; auto.
  destruct H as [H|[H|H]]; discriminate.
Qed.

Lemma processStage_fire (i : nat) (s : pstate) : Inv s -> fst (processStage B (Z.of_nat i) s) = fire i s.
Proof.
  intros HI. unfold fire.
  destruct (nth_error (elems s) i) as [e|] eqn:He.
  2:{ rewrite processStage_disabled; auto. }
  destruct (nth_error (deqs s) i) as [[|x q]|] eqn:Hq;
    [rewrite processStage_disabled; auto| |rewrite processStage_disabled; auto].
  destruct (nth_error (cycles s) i) as [c|] eqn:Hc.
  2:{ apply nth_error_None in Hc. destruct HI as (H1 & H2).
      assert (i < length (elems s)) by (apply nth_error_Some; congruence). lia. }
  rewrite (processStage_local i s e x q c); auto.
Qed.

End Local.
