(** * PipelineProps: property theorems for astropysics/pipeline.py (C01-C08) *)
From Coq Require Import List ZArith Lia Bool String.
From stdpp Require Import gmap.
From Verif Require Import PyBase PipelineModel PipelineSpec PipelineProofs PipelineLocal PipelineSched
  PipelineMore PipelineDrain PipelineIO.
Import ListNotations.

(** A state of a Pipeline object after any history of calls, including calls
    that raised. *)
Definition reachable {D U} (B : @behav D U) (s : @pstate D U) : Prop :=
  exists es h np ops, s = run B (init es h np) ops.

Lemma reachable_inv {D U} (B : @behav D U) s : reachable B s -> Inv s.
Proof. intros (es & h & np & ops & ->). apply run_inv, init_inv. Qed.

(** ** C01 *)
Theorem C01_shape : forall D U (B : @behav D U) s, reachable B s ->
  length (deqs s) = S (length (elems s)) /\ length (cycles s) = length (elems s).
Proof. exact (fun D U B s H => reachable_inv B s H). Qed.
Print Assumptions C01_shape.

(** Processing calls never change which elements there are. *)
Theorem C01_processing_keeps_stages : forall D U (B : @behav D U) s i,
  elems (fst (processStage B i s)) = elems s.
Proof. exact (fun D U B s i => proj1 (processStage_shape B i s)). Qed.
Print Assumptions C01_processing_keeps_stages.

(** ** C08 *)
Theorem C08_addElement : forall D U (B : @behav D U) s (i e : nat), reachable B s -> i <= length (elems s) ->
  let s' := addElement (Z.of_nat i) e s in
  nth_error (elems s') i = Some e /\ nth_error (deqs s') i = Some [] /\ nth_error (cycles s') i = Some 0 /\
  (forall j, j < i -> nth_error (elems s') j = nth_error (elems s) j /\
      nth_error (deqs s') j = nth_error (deqs s) j /\ nth_error (cycles s') j = nth_error (cycles s) j) /\
  (forall j, i <= j -> nth_error (elems s') (S j) = nth_error (elems s) j /\
      nth_error (deqs s') (S j) = nth_error (deqs s) j /\ nth_error (cycles s') (S j) = nth_error (cycles s) j).
Proof. exact (fun D U B s i e H => addElement_spec i e s (reachable_inv B s H)). Qed.
Print Assumptions C08_addElement.

(** [q]: queue of the removed stage, [qn]: queue of the next stage (or the
    output), both in processing order. *)
Theorem C08_removeElement : forall D U (B : @behav D U) s (i : nat) keepdata e q qn, reachable B s ->
  nth_error (elems s) i = Some e -> nth_error (deqs s) i = Some q -> nth_error (deqs s) (S i) = Some qn ->
  exists s', removeElement (Z.of_nat i) keepdata s = (s', Ok e) /\
  heap s' = heap s /\ nproc s' = nproc s /\
  nth_error (deqs s') i = Some (if keepdata then qn ++ q else qn) /\
  (forall j, j < i -> nth_error (elems s') j = nth_error (elems s) j /\
      nth_error (deqs s') j = nth_error (deqs s) j /\ nth_error (cycles s') j = nth_error (cycles s) j) /\
  (forall j, i <= j -> nth_error (elems s') j = nth_error (elems s) (S j) /\
      nth_error (cycles s') j = nth_error (cycles s) (S j)) /\
  (forall j, i < j -> nth_error (deqs s') j = nth_error (deqs s) (S j)).
Proof. exact (fun D U B s i k e q qn H => removeElement_spec i k s e q qn (reachable_inv B s H)). Qed.
Print Assumptions C08_removeElement.

(** ** C02 *)
Theorem C02_schedule_independent : forall D U (B : @behav D U) s acts1 acts2, reachable B s -> NoDup (elems s) ->
  fed acts1 = fed acts2 ->
  drained (fst (run_acts B s acts1)) -> drained (fst (run_acts B s acts2)) ->
  let '(s1, x1) := run_acts B s acts1 in let '(s2, x2) := run_acts B s acts2 in
  x1 ++ output s1 = x2 ++ output s2 /\ heap s1 = heap s2 /\ cycles s1 = cycles s2 /\ nproc s1 = nproc s2.
Proof. exact (fun D U B s a1 a2 H => schedule_independent B s a1 a2 (reachable_inv B s H)). Qed.
Print Assumptions C02_schedule_independent.

Theorem C02_stream_semantics : forall D U (B : @behav D U) s acts, reachable B s -> NoDup (elems s) ->
  (forall e, In e (elems s) -> ok_elem B e) -> no_acc B s ->
  (forall i q x, i < length (elems s) -> nth_error (deqs s) i = Some q -> In x q -> ok_item x) ->
  (forall x, In x (fed acts) -> ok_item x) ->
  drained (fst (run_acts B s acts)) ->
  let '(s', ex) := run_acts B s acts in
  (List.map (attrs_of B s') (elems s), ex ++ output s') =
  flow B (elems s) (List.map (attrs_of B s) (elems s)) (deqs s) (fed acts).
Proof.
  exact (fun D U B s acts H HN Ho Ha Hq => pipeline_stream B s acts
           (conj (reachable_inv B s H) (conj HN (conj Ho (conj Ha Hq))))).
Qed.
Print Assumptions C02_stream_semantics.

(** ** C03 *)
Theorem C03_failure_keeps_data : forall D U (B : @behav D U) s (i : nat) e d q s' x, reachable B s ->
  nth_error (elems s) i = Some e -> nth_error (deqs s) i = Some (IData d :: q) ->
  b_check B e (attrs_of B s e) d = true ->
  processStage B (Z.of_nat i) s = (s', Raise x) ->
  exists resaved,
    nth_error (deqs s') i = Some (IData d :: List.map IData resaved ++ q) /\
    (forall j, j <> i -> nth_error (deqs s') j = nth_error (deqs s) j) /\
    elems s' = elems s /\ cycles s' = cycles s /\ nproc s' = nproc s /\
    (forall e', e' <> e -> heap s' !! e' = heap s !! e') /\
    (e_accs (est B (heap s) e) = [] ->
     (forall u, p_resave (b_process B e u d) = [] /\ p_resave (b_interact B e u d) = []) -> resaved = []).
Proof. exact (fun D U B s i e d q s' x H => failure_keeps_data B s i e d q s' x (reachable_inv B s H)). Qed.
Print Assumptions C03_failure_keeps_data.

Theorem C03_type_error_drops : forall D U (B : @behav D U) s (i : nat) e d q, reachable B s ->
  nth_error (elems s) i = Some e -> nth_error (deqs s) i = Some (IData d :: q) ->
  b_check B e (attrs_of B s e) d = false ->
  processStage B (Z.of_nat i) s = (with_deqs s (set_nth i q (deqs s)), Raise TypeError).
Proof. exact (fun D U B s i e d q H => type_error_drops B s i e d q (reachable_inv B s H)). Qed.
Print Assumptions C03_type_error_drops.

(** ** C04 *)
Theorem C04_message_step : forall D U (B : @behav D U) s (i : nat) e m q, reachable B s ->
  nth_error (elems s) i = Some e -> nth_error (deqs s) i = Some (IMsg m :: q) -> quiet_msg m ->
  let last := (S i =? length (elems s)) in
  let '(s', r) := processStage B (Z.of_nat i) s in
  npr (nproc s') (m_id m) = npr (nproc s) (m_id m) + (if targets B m e then 1 else 0) /\
  attrs_of B s' e = (if targets B m e then msg_effect B m e (attrs_of B s e) else attrs_of B s e) /\
  (forall e', e' <> e -> attrs_of B s' e' = attrs_of B s e') /\
  nth_error (deqs s') i = Some q /\
  (last = false -> forall qn, nth_error (deqs s) (S i) = Some qn ->
     nth_error (deqs s') (S i) = Some (if (targets B m e && negb (to_class m))%bool then qn else qn ++ [IMsg m])) /\
  (last = true -> output s' = output s) /\
  r = (if targets B m e then (if to_class m then Ok RDeliveredPassed else Ok RDelivered)
       else if (last && Nat.eqb (npr (nproc s) (m_id m)) 0)%bool then Raise PipelineError else Ok RPassed).
Proof. exact (fun D U B s i e m q H => message_step B s i e m q (reachable_inv B s H)). Qed.
Print Assumptions C04_message_step.

Theorem C04_message_broadcast : forall D U (B : @behav D U) s acts m, reachable B s -> NoDup (elems s) ->
  (forall e, In e (elems s) -> ok_elem B e) -> no_acc B s -> drained s -> quiet_msg m -> elems s <> [] ->
  fed acts = [IMsg m] -> drained (fst (run_acts B s acts)) ->
  let '(s', ex) := run_acts B s acts in
  (forall e, In e (elems s) ->
     attrs_of B s' e = if targets B m e then msg_effect B m e (attrs_of B s e) else attrs_of B s e)
  /\ ex ++ output s' = output s.
Proof.
  refine (fun D U B s acts m H HN Ho Ha Hd => message_broadcast B s acts m
           (conj (reachable_inv B s H) (conj HN (conj Ho (conj Ha _)))) Hd).
  intros i q x Hi Hq Hin. rewrite (Hd i Hi) in Hq. injection Hq as <-. destruct Hin.
Qed.
Print Assumptions C04_message_broadcast.

(** CallMethodMessage never performs the call (undefined names in
    deliverMessage): delivery always raises and the message is gone. *)
Theorem C04_callmethod_refuted : forall D U (B : @behav D U) s (i : nat) e m meth q, reachable B s ->
  nth_error (elems s) i = Some e -> nth_error (deqs s) i = Some (IMsg m :: q) ->
  m_kind m = MCall meth -> targets B m e = true ->
  exists s', processStage B (Z.of_nat i) s = (s', Raise (if b_hasmeth B e meth then NameError else AttributeError))
    /\ nth_error (deqs s') i = Some q /\ attrs_of B s' e = attrs_of B s e.
Proof. exact (fun D U B s i e m meth q H => callmethod_fails B s i e m meth q (reachable_inv B s H)). Qed.
Print Assumptions C04_callmethod_refuted.

(** ** C05: [fires s (repeat i k)] is [k] successive calls of processStage(i) *)
Theorem C05_fires_is_processStage : forall D U (B : @behav D U) s (i : nat), reachable B s ->
  fire B i s = fst (processStage B (Z.of_nat i) s).
Proof. exact (fun D U B s i H => eq_sym (processStage_fire B i s (reachable_inv B s H))). Qed.
Print Assumptions C05_fires_is_processStage.

Theorem C05_accumulate : forall D U (B : @behav D U) s (i : nat) e c m n a f ds rest v, reachable B s ->
  nth_error (elems s) i = Some e ->
  nth_error (deqs s) i = Some (IMsg m :: List.map IData ds ++ rest) ->
  nth_error (cycles s) i = Some c ->
  m_target m = TObj e -> m_kind m = MAccum n a f -> n = Z.of_nat (length ds) -> ds <> [] ->
  (forall d, In d ds -> b_check B e (attrs_of B s e) d = true) ->
  (match f with None => Ok (b_oflist B ds) | Some g => g ds end) = Ok v ->
  let s' := fires B s (repeat i (S (length ds))) in
  deqs s' = set_nth i ((match a with None => [IData v] | Some _ => [] end) ++ rest) (deqs s) /\
  est B (heap s') e = {| e_u := match a with None => attrs_of B s e | Some nm => b_setattr B (attrs_of B s e) nm v end;
                         e_accs := e_accs (est B (heap s) e); e_hasacc := false |} /\
  cycles s' = set_nth i (c + length ds) (cycles s) /\
  (forall e', e' <> e -> heap s' !! e' = heap s !! e') /\ elems s' = elems s.
Proof.
  exact (fun D U B s i e c m n a f ds rest v H => accumulate B s i e c m n a f ds rest v (reachable_inv B s H)).
Qed.
Print Assumptions C05_accumulate.

(** ** C06 *)
Theorem C06_processSingle : forall D U (B : @behav D U) s x ks us' y limit rf fuel, reachable B s -> NoDup (elems s) ->
  no_acc B s ->
  (forall j, j < length (elems s) -> nth_error (cycles s) j = Some 0) ->
  (forall j, 0 < j <= length (elems s) -> nth_error (deqs s) j = Some []) ->
  through B (elems s) (List.map (attrs_of B s) (elems s)) x ks us' y ->
  (forall k, In k ks -> (limit = 0%Z \/ (Z.of_nat k < limit)%Z) /\ S k < fuel) ->
  exists s', processSingle B fuel (IData x) limit rf s = (s', Ok (IData y)) /\
    deqs s' = deqs s /\ cycles s' = cycles s /\ elems s' = elems s /\
    List.map (attrs_of B s') (elems s) = us'.
Proof.
  exact (fun D U B s x ks us' y limit rf fuel H => processSingle_ok B s x ks us' y limit rf fuel (reachable_inv B s H)).
Qed.
Print Assumptions C06_processSingle.

(** A datum that is not completed in [limit] attempts: PipelineError.  The
    documentation says that with removefailed it is removed from the pipeline; in fact it is
    left in the queue (once), and with removefailed=False it is there twice. *)
Theorem C06_limit_and_removefailed_refuted : forall D U (B : @behav D U) s e x u' limit rf fuel q0, reachable B s ->
  nth_error (elems s) 0 = Some e ->
  e_accs (est B (heap s) e) = [] -> nth_error (cycles s) 0 = Some 0 ->
  nth_error (deqs s) 0 = Some q0 ->
  (0 < limit)%Z -> stuck B e (attrs_of B s e) x (Z.to_nat limit) u' -> Z.to_nat limit <= fuel ->
  exists s', processSingle B fuel (IData x) limit rf s = (s', Raise PipelineError) /\
    nth_error (deqs s') 0 = Some ((if rf then [IData x] else [IData x; IData x]) ++ q0) /\
    (forall j, j <> 0 -> nth_error (deqs s') j = nth_error (deqs s) j).
Proof.
  exact (fun D U B s e x u' limit rf fuel q0 H => processSingle_stuck B s e x u' limit rf fuel q0 (reachable_inv B s H)).
Qed.
Print Assumptions C06_limit_and_removefailed_refuted.

(** ** C07 *)
Theorem C07_processToStage_drains : forall D U (B : @behav D U) s (k : nat) r lim, reachable B s ->
  NoDup (elems s) -> k < length (elems s) -> rep_lim r = Some lim ->
  (forall j, j < length (elems s) -> nth_error (cycles s) j = Some 0) ->
  (forall e, In e (elems s) -> completes B e /\ e_accs (est B (heap s) e) = []) ->
  (forall j, 0 <= j < 0 + S k -> exists ds, nth_error (deqs s) j = Some (List.map IData ds)) ->
  exists N s', forall fuel, N <= fuel ->
    processToStage B fuel (Z.of_nat k) r s = (s', Ok (repeat (SRList []) (S k))) /\
    elems s' = elems s /\ cycles s' = cycles s /\
    (forall j, j <= k -> nth_error (deqs s') j = Some []) /\
    (forall j, S k < j -> nth_error (deqs s') j = nth_error (deqs s) j) /\
    (forall e, ~ In e (firstn (S k) (elems s)) -> heap s' !! e = heap s !! e) /\
    flow B (firstn (S k) (elems s)) (List.map (attrs_of B s) (firstn (S k) (elems s))) (deqs s) [] =
    (List.map (attrs_of B s') (firstn (S k) (elems s)), List.nth (S k) (deqs s') []).
Proof. exact (fun D U B s k r lim H => processToStage_drains B s k r lim (reachable_inv B s H)). Qed.
Print Assumptions C07_processToStage_drains.

(** repeat=n: a datum that the first stage does not complete in n attempts
    makes processing raise PipelineError after exactly n attempts, the datum
    being still first in its queue. *)
Theorem C07_repeat_limit : forall D U (B : @behav D U) s (k : nat) e d q0 u' limit fuel, reachable B s ->
  nth_error (elems s) 0 = Some e ->
  e_accs (est B (heap s) e) = [] -> nth_error (cycles s) 0 = Some 0 ->
  nth_error (deqs s) 0 = Some (IData d :: q0) ->
  (0 < limit)%Z -> stuck B e (attrs_of B s e) d (Z.to_nat limit) u' -> Z.to_nat limit < fuel ->
  exists s', processToStage B fuel (Z.of_nat k) (RepInt limit) s = (s', Raise PipelineError) /\
    deqs s' = deqs s /\ attrs_of B s' e = u' /\ nth_error (cycles s') 0 = Some (Z.to_nat limit).
Proof.
  exact (fun D U B s k e d q0 u' limit fuel H => processToStage_limit B s k e d q0 u' limit fuel (reachable_inv B s H)).
Qed.
Print Assumptions C07_repeat_limit.

(** ** C31: feeding, extracting and clearing *)
Theorem C31_feedMany : forall D U (B : @behav D U) s xs q, reachable B s ->
  nth_error (deqs s) 0 = Some q ->
  feedMany xs s = (with_deqs s (set_nth 0 (q ++ xs) (deqs s)), Ok tt).
Proof. exact (fun D U B s xs q _ => feedMany_spec xs s q). Qed.
Print Assumptions C31_feedMany.

Theorem C31_extract : forall D U (B : @behav D U) s fuel all, reachable B s ->
  match output s with
  | [] => extract B fuel all false s = (s, Raise IndexError)
  | x :: q => exists s', extract B fuel all false s = (s', Ok (if all then XAll (x :: q) else XOne x)) /\
      output s' = (if all then [] else q) /\ elems s' = elems s /\ cycles s' = cycles s /\ heap s' = heap s /\
      (forall j, j < length (elems s) -> nth_error (deqs s') j = nth_error (deqs s) j)
  end.
Proof.
  intros D U B s fuel all H. apply reachable_inv in H. rewrite (extract_full B fuel all s H).
  destruct (output s) as [|x q] eqn:E; [reflexivity|].
  destruct all; (eexists; split; [reflexivity|]); (split; [apply output_with; exact H|]);
    (split; [reflexivity|]); (split; [reflexivity|]); (split; [reflexivity|]);
    intros j Hj; apply nth_error_set_nth_neq; lia.
Qed.
Print Assumptions C31_extract.

(** extract(extractall=True, autoprocess=True) returns everything the pipeline
    produces from the waiting data and leaves it empty. *)
Theorem C31_extract_autoprocess : forall D U (B : @behav D U) s, reachable B s -> NoDup (elems s) -> elems s <> [] ->
  (forall j, j < length (elems s) -> nth_error (cycles s) j = Some 0) ->
  (forall e, In e (elems s) -> completes B e /\ e_accs (est B (heap s) e) = []) ->
  (forall j, j < length (elems s) -> exists ds, nth_error (deqs s) j = Some (List.map IData ds)) ->
  snd (flow B (elems s) (List.map (attrs_of B s) (elems s)) (deqs s) []) <> [] ->
  exists N s', forall fuel, N <= fuel ->
    extract B fuel true true s =
      (s', Ok (XAll (snd (flow B (elems s) (List.map (attrs_of B s) (elems s)) (deqs s) [])))) /\
    elems s' = elems s /\ (forall j, j <= length (elems s) -> nth_error (deqs s') j = Some []).
Proof. exact (fun D U B s H => extract_auto B s (reachable_inv B s H)). Qed.
Print Assumptions C31_extract_autoprocess.

Theorem C31_clear : forall D U (B : @behav D U) s (stages : option (list nat)), reachable B s ->
  (match stages with Some l => forall j, In j l -> j <= length (elems s) | None => True end) ->
  exists s', clear (option_map (List.map Z.of_nat) stages) s = (s', Ok tt) /\
    elems s' = elems s /\ cycles s' = cycles s /\ heap s' = heap s /\ nproc s' = nproc s /\
    forall j, j <= length (elems s) ->
      (match stages with Some l => In j l -> nth_error (deqs s') j = Some []
                       | None => nth_error (deqs s') j = Some [] end) /\
      (match stages with Some l => ~ In j l -> nth_error (deqs s') j = nth_error (deqs s) j | None => True end).
Proof. exact (fun D U B s st H => clear_spec s st (reachable_inv B s H)). Qed.
Print Assumptions C31_clear.

(** ** Concrete instances (non-vacuity) and refutations *)
(** Elements: 0 adds its attribute; 1 adds its attribute and increments it;
    2 retries as many times as its attribute says; 3 raises; 4 drops data;
    others: identity.  Class of element e is e/10. *)
Definition Bx : @behav nat nat := {|
  b_class := fun e => e / 10;
  b_init := fun e => match e with 2 => 3 | _ => 5 end;
  b_check := fun _ _ d => negb (Nat.eqb d 999);
  b_process := fun e u d =>
    match e with
    | 0 => {| p_u := u; p_resave := []; p_out := ORet (Some (IData (d + u))) |}
    | 1 => {| p_u := S u; p_resave := []; p_out := ORet (Some (IData (d + u))) |}
    | 2 => match u with
           | O => {| p_u := 3; p_resave := []; p_out := ORet (Some (IData d)) |}
           | S u' => {| p_u := u'; p_resave := [d]; p_out := ORet None |}
           end
    | 3 => {| p_u := u; p_resave := []; p_out := OExn (UserExn 7) |}
    | 4 => {| p_u := u; p_resave := []; p_out := ORet None |}
    | _ => {| p_u := u; p_resave := []; p_out := ORet (Some (IData d)) |}
    end;
  b_interact := fun _ u _ => {| p_u := u; p_resave := []; p_out := ORet None |};
  b_setattr := fun _ _ v => v;
  b_hasmeth := fun _ _ => true;
  b_oflist := fun l => fold_right Nat.add 0 l |}.

Notation dat := (List.map (@IData nat nat)).
Definition mset v t : @item nat nat := IMsg {| m_id := 1; m_target := t; m_kind := MSetAttr [("a"%string, v)] |}.

(** C01/C08: a history with additions, removals and an exception *)
Example C01_ex : let s := run Bx (init [0; 3] ∅ ∅)
   [OpFeedMany (dat [1;2;3]); OpProcessStage 0; OpProcessStage 1; OpAdd 1 1; OpRemove 2 true; OpProcessStage 7] in
  elems s = [0; 1] /\ deqs s = [dat [2;3]; []; dat [6]].
Proof. vm_compute. auto. Qed.

(** Negative stage numbers misalign queues and elements: inserting at -1 puts
    the element before the last one, but gives its empty queue to the old last
    element and the old element's data to the new element. *)
Theorem C08_negative_stage_refuted : exists s, reachable Bx s /\ elems s = [0; 1] /\
  nth_error (deqs s) 1 = Some (dat [6]) (* waiting for element 1 *) /\
  let s' := addElement (-1) 5 s in
  nth_error (elems s') 2 = Some 1 /\ nth_error (deqs s') 2 = Some [] /\
  nth_error (elems s') 1 = Some 5 /\ nth_error (deqs s') 1 = Some (dat [6]).
Proof.
  exists (run Bx (init [0; 1] ∅ ∅) [OpFeed (IData 1); OpProcessStage 0]).
  split; [eexists _, _, _, _; reflexivity|]. vm_compute. auto 10.
Qed.
Print Assumptions C08_negative_stage_refuted.

(** removeElement(-1, keepdata=True) moves finished output back into the input
    of the previous stage's queue position. *)
Theorem C08_negative_remove_refuted : exists s, reachable Bx s /\ elems s = [0; 5] /\
  output s = dat [6] /\
  let '(s', r) := removeElement (-1) true s in
  r = Ok 5 /\ elems s' = [0] /\ output s' = dat [7; 6].
Proof.
  exists (run Bx (init [0; 5] ∅ ∅) [OpFeedMany (dat [1; 2]); OpProcessStage 0; OpProcessStage 1; OpProcessStage 0]).
  split; [eexists _, _, _, _; reflexivity|]. vm_compute. auto 10.
Qed.
Print Assumptions C08_negative_remove_refuted.

(** C02: two different schedules of a stateful pipeline, both draining *)
Definition sA : list (@act nat nat) := [AFeed (IData 1); AStep 0; AFeed (mset 9 (TObj 0)); AStep 1; AFeed (IData 2); AExtract; AStep 0; AStep 0; AStep 1; AExtract].
Definition sB : list (@act nat nat) := [AFeed (IData 1); AFeed (mset 9 (TObj 0)); AFeed (IData 2); AStep 1; AStep 0; AStep 0; AStep 0; AStep 1; AStep 1; AExtract].
Example C02_ex : let s := init [0; 1] ∅ ∅ in
  reachable Bx s /\ NoDup (elems s) /\ fed sA = fed sB /\
  drained (fst (run_acts Bx s sA)) /\ drained (fst (run_acts Bx s sB)) /\
  snd (run_acts Bx s sA) = dat [11; 17] /\ snd (run_acts Bx s sB) = dat [11] /\
  output (fst (run_acts Bx s sB)) = dat [17].
Proof.
  split; [eexists _, _, _, []; reflexivity|]. split; [repeat constructor; set_solver|].
  split; [reflexivity|]. split; [|split].
  - intros [|[|i]] Hi; [reflexivity|reflexivity|vm_compute in Hi; lia].
  - intros [|[|i]] Hi; [reflexivity|reflexivity|vm_compute in Hi; lia].
  - vm_compute. auto.
Qed.
Definition Bok : @behav nat nat := {|
  b_class := b_class Bx; b_init := b_init Bx; b_check := fun _ _ _ => true; b_process := b_process Bx;
  b_interact := b_interact Bx; b_setattr := b_setattr Bx; b_hasmeth := b_hasmeth Bx; b_oflist := b_oflist Bx |}.
Example C02_ex_ok : (forall e, In e [0; 1; 4] -> ok_elem Bok e) /\ no_acc Bok (init [0;1;4] ∅ ∅)
  /\ (forall x, In x (fed sA) -> ok_item x).
Proof.
  split; [|split].
  - intros e [<-|[<-|[<-|[]]]] u d; cbn; repeat split; auto.
  - intros e He. reflexivity.
  - intros x Hx. cbn in Hx. destruct Hx as [<-|[<-|[<-|[]]]]; cbn; auto.
Qed.

(** C03: a raising element *)
Example C03_ex : let s := run Bx (init [3] ∅ ∅) [OpFeedMany (dat [1;2])] in
  exists s', processStage Bx 0 s = (s', Raise (UserExn 7)) /\ deqs s' = [dat [1;2]; []].
Proof. eexists. split; [vm_compute; reflexivity|reflexivity]. Qed.
Example C03_ex_type : let s := run Bx (init [0] ∅ ∅) [OpFeedMany (dat [999;2])] in
  processStage Bx 0 s = (with_deqs s [dat [2]; []], Raise TypeError).
Proof. reflexivity. Qed.

(** C04: a class message reaches both elements of class 1; an undeliverable one raises *)
Example C04_ex : let s := run Bok (init [10; 0; 11] ∅ ∅) [OpFeed (mset 9 (TClass 1)); OpProcess 5 RepFalse] in
  List.map (attrs_of Bok s) [10; 0; 11] = [9; 5; 9] /\ npr (nproc s) 1 = 2 /\ deqs s = [[]; []; []; []].
Proof. vm_compute. auto. Qed.
Example C04_ex_undelivered : let s := run Bok (init [10; 0] ∅ ∅) [OpFeed (mset 9 (TClass 7))] in
  snd (process Bok 5 RepFalse s) = Raise PipelineError.
Proof. vm_compute. auto. Qed.

(** C05 *)
Definition macc n : @item nat nat := IMsg {| m_id := 2; m_target := TObj 0; m_kind := MAccum n None None |}.
Example C05_ex : let s := run Bok (init [0] ∅ ∅) (OpFeed (macc 3) :: List.map OpFeed (dat [1;2;3;4])) in
  deqs (fires Bok s (repeat 0 4)) = [dat [6;4]; []].
Proof. vm_compute. auto. Qed.
(** two AccumulateMessages in a row: the first to be installed cannot finish
    cleanly, AttributeError (its "accumulator" attribute was already deleted) *)
Theorem C05_nested_accumulate_refuted :
  let s := run Bok (init [0] ∅ ∅) ([OpFeed (macc 1); OpFeed (macc 1)] ++ List.map OpFeed (dat [1;2])
            ++ [OpProcessStage 0; OpProcessStage 0; OpProcessStage 0]) in
  snd (processStage Bok 0 s) = Raise AttributeError.
Proof. vm_compute. auto. Qed.
Print Assumptions C05_nested_accumulate_refuted.

(** C06 *)
Example C06_ex : let s := run Bok (init [2; 0] ∅ ∅) [OpFeed (IData 8)] in
  through Bok (elems s) (List.map (attrs_of Bok s) (elems s)) 1 [3; 0] [3; 5] 6 /\
  snd (processSingle Bok 20 (IData 1) 10 true s) = Ok (IData 6).
Proof.
  split; [|vm_compute; reflexivity].
  eapply th_cons. { eapply at_retry; [reflexivity..|]. eapply at_retry; [reflexivity..|]. eapply at_retry; [reflexivity..|].
    apply at_done; reflexivity. }
  eapply th_cons. { apply at_done; reflexivity. } apply th_nil.
Qed.
Example C06_ex_stuck : stuck Bok 2 3 1 3 0.
Proof. eapply st_more; [reflexivity..|]. eapply st_more; [reflexivity..|]. eapply st_more; [reflexivity..|]. apply st_zero. Qed.

(** "skipping over anything in the queue" is false when a later stage has
    waiting data: the result returned is that of the other datum. *)
Theorem C06_skips_queue_refuted : exists s s', reachable Bok s /\
  nth_error (deqs s) 1 = Some (dat [6]) /\
  processSingle Bok 20 (IData 100) 10 true s = (s', Ok (IData 11)) /\
  nth_error (deqs s') 1 = Some (dat [105]).
Proof.
  exists (run Bok (init [0; 1] ∅ ∅) [OpFeed (IData 1); OpProcessStage 0]).
  eexists. split; [eexists _, _, _, _; reflexivity|]. split; [reflexivity|].
  split; [vm_compute; reflexivity|reflexivity].
Qed.
Print Assumptions C06_skips_queue_refuted.

(** C07 *)
Example C07_ex : (forall e, In e [0; 1] -> completes Bok e) /\
  let s := run Bok (init [0; 1] ∅ ∅) [OpFeedMany (dat [1;2;3])] in
  let '(s', r) := process Bok 20 RepTrue s in
  r = Ok [SRList []; SRList []] /\ output s' = dat [11; 13; 15].
Proof.
  split.
  - intros e [<-|[<-|[]]] u d; split; try reflexivity; eexists _, _; reflexivity.
  - vm_compute. auto.
Qed.
(** An element that swallows data makes processing with repeat raise
    IndexError instead of finishing. *)
Theorem C07_swallowing_element_refuted :
  let s := run Bok (init [4] ∅ ∅) [OpFeedMany (dat [1;2])] in
  snd (process Bok 20 RepTrue s) = Raise IndexError.
Proof. vm_compute. auto. Qed.
Print Assumptions C07_swallowing_element_refuted.
Example C07_limit_ex : let s := run Bok (init [2] ∅ ∅) [OpFeedMany (dat [7;8])] in
  stuck Bok 2 (attrs_of Bok s 2) 7 3 0 /\ snd (process Bok 20 (RepInt 3) s) = Raise PipelineError /\
  snd (process Bok 20 (RepInt 4) s) = Ok [SRList [RFalse; RFalse; RTrue; RFalse; RFalse; RTrue]].
Proof.
  split; [|vm_compute; auto]. eapply st_more; [reflexivity..|]. eapply st_more; [reflexivity..|].
  eapply st_more; [reflexivity..|]. apply st_zero.
Qed.

(** C31 *)
Example C31_ex : let s := run Bok (init [0; 1] ∅ ∅) [OpFeedMany (dat [1;2;3]); OpProcessStage 0] in
  exists s', extract Bok 20 true true s = (s', Ok (XAll (dat [11;13;15]))) /\ deqs s' = [[]; []; []].
Proof. eexists. split; [vm_compute; reflexivity|reflexivity]. Qed.
(** with nothing to extract even extractall raises, after having processed everything *)
Example C31_empty : snd (extract Bok 20 true true (init [0] ∅ ∅)) = Raise IndexError.
Proof. reflexivity. Qed.
