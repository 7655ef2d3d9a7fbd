(** * PipelineSpec: what a pipeline is supposed to compute (no queues).

    Small, independent specification used by the pipeline theorems. *)
From Coq Require Import List ZArith Lia Bool String.
From stdpp Require Import gmap.
From Verif Require Import PyBase PipelineModel.
Import ListNotations.

Section Spec.
Context {D U : Type}.
Variable B : @behav D U.
Notation pstate := (@pstate D U).
Notation item := (@item D U).
Notation msg := (@msg D U).

(** ** Client schedules: feeds, single processing steps and extractions in any order *)
Inductive act := AFeed (x : item) | AStep (stage : nat) | AExtract.

Definition do_act (s : pstate) (a : act) : pstate * list item :=
  match a with
  | AFeed x => (fst (feed x s), [])
  | AStep i => (fst (processStage B (Z.of_nat i) s), [])
  | AExtract => match extract B 0 false false s with
                | (s', Ok (XOne x)) => (s', [x])
                | (s', _) => (s', [])
                end
  end.

(** final state and everything extracted, in order *)
Fixpoint run_acts (s : pstate) (acts : list act) : pstate * list item :=
  match acts with
  | [] => (s, [])
  | a :: r => let '(s1, x1) := do_act s a in
              let '(s2, x2) := run_acts s1 r in (s2, x1 ++ x2)
  end.

Fixpoint fed (acts : list act) : list item :=
  match acts with
  | [] => []
  | AFeed x :: r => x :: fed r
  | _ :: r => fed r
  end.

(** the output queue, in extraction order *)
Definition output (s : pstate) : list item := List.last (deqs s) [].

(** nothing is waiting in front of any element *)
Definition drained (s : pstate) : Prop :=
  forall i, i < length (elems s) -> nth_error (deqs s) i = Some [].

(** ** Well-behaved elements and messages *)
Definition quiet_msg (m : msg) : Prop :=
  match m_kind m with
  | MSetAttr _ => True
  | MUser f => forall e u, snd (f e u) = None
  | MCall _ | MAccum _ _ _ => False
  end.
Definition ok_item (x : item) : Prop :=
  match x with IData _ => True | IMsg m => quiet_msg m end.

(** never raises, accepts every datum, calls no resaveData; may keep state, may
    complete in plProcess or plInteract or swallow the datum *)
Definition ok_elem (e : nat) : Prop := forall u d,
  b_check B e u d = true /\
  let p := b_process B e u d in
  p_resave p = [] /\
  match p_out p with
  | OExn _ => False
  | ORet (Some y) => ok_item y
  | ORet None =>
      let p2 := b_interact B e (p_u p) d in
      p_resave p2 = [] /\
      match p_out p2 with
      | OExn _ => False
      | ORet (Some y) => ok_item y
      | ORet None => True
      end
  end.

(** ** Stream semantics *)
Definition targets (m : msg) (e : nat) : bool :=
  match m_target m with TObj t => Nat.eqb e t | TClass c => Nat.eqb (b_class B e) c end.
Definition to_class (m : msg) : bool :=
  match m_target m with TObj _ => false | TClass _ => true end.
Definition msg_effect (m : msg) (e : nat) (u : U) : U :=
  match m_kind m with
  | MSetAttr attrs => fold_left (fun u nv => b_setattr B u (fst nv) (snd nv)) attrs u
  | MUser f => fst (f e u)
  | _ => u
  end.

(** one input of element [e] in state [u]: new state and outputs ([last]: the
    element is the last of the pipeline; messages are not output). *)
Definition stage_in (e : nat) (last : bool) (u : U) (x : item) : U * list item :=
  match x with
  | IData d =>
      let p := b_process B e u d in
      match p_out p with
      | ORet (Some y) => (p_u p, [y])
      | _ => let p2 := b_interact B e (p_u p) d in
             (p_u p2, match p_out p2 with ORet (Some y) => [y] | _ => [] end)
      end
  | IMsg m =>
      if targets m e
      then (msg_effect m e u, if (to_class m && negb last)%bool then [x] else [])
      else (u, if last then [] else [x])
  end.

Fixpoint stage_run (e : nat) (last : bool) (u : U) (xs : list item) : U * list item :=
  match xs with
  | [] => (u, [])
  | x :: r => let '(u1, o1) := stage_in e last u x in
              let '(u2, o2) := stage_run e last u1 r in (u2, o1 ++ o2)
  end.

(** The whole pipeline: [qs] are the initial queues (one more than elements),
    [inc] is what will still be fed.  Result: the final state of each element, in order, and
    the complete output. *)
Fixpoint flow (es : list nat) (us : list U) (qs : list (list item)) (inc : list item)
  : list U * list item :=
  match es, us, qs with
  | e :: es', u :: us', q :: qs' =>
      let '(u', outs) := stage_run e (match es' with [] => true | _ => false end) u (q ++ inc) in
      let '(ul, o) := flow es' us' qs' outs in (u' :: ul, o)
  | [], _, q :: _ => ([], q ++ inc)
  | _, _, _ => ([], inc)
  end.

Definition attrs_of (s : pstate) (e : nat) : U := e_u (est B (heap s) e).

(** no accumulator is installed on any element of the pipeline *)
Definition no_acc (s : pstate) : Prop :=
  forall e, In e (elems s) -> e_accs (est B (heap s) e) = [].

End Spec.

Section Spec2.
Context {D U : Type}.
Variable B : @behav D U.
Notation item := (@item D U).
Notation pstate := (@pstate D U).

(** ** Completing elements and retries *)

(** one attempt: plProcess, then plInteract if it returned None *)
Definition attempt (e : nat) (u : U) (d : D) : U * list D * @outcome D U :=
  let p := b_process B e u d in
  match p_out p with
  | ORet None => let p2 := b_interact B e (p_u p) d in (p_u p2, p_resave p ++ p_resave p2, p_out p2)
  | o => (p_u p, p_resave p, o)
  end.

(** every datum is completed into one datum at the first attempt *)
Definition completes (e : nat) : Prop := forall u d,
  b_check B e u d = true /\ exists u' y, attempt e u d = (u', [], ORet (Some (IData y))).

(** [attempts e u d k u' y]: element [e] in state [u] fails to complete [d] [k]
    times, each time resaving it, and then completes it with result [y]. *)
Inductive attempts (e : nat) : U -> D -> nat -> U -> D -> Prop :=
| at_done u d u' y : b_check B e u d = true -> attempt e u d = (u', [], ORet (Some (IData y))) ->
    attempts e u d 0 u' y
| at_retry u d u1 k u' y : b_check B e u d = true -> attempt e u d = (u1, [d], ORet None) ->
    attempts e u1 d k u' y -> attempts e u d (S k) u' y.

(** passing [x] through all the elements in order; [ks] are the numbers of retries *)
Inductive through : list nat -> list U -> D -> list nat -> list U -> D -> Prop :=
| th_nil x : through [] [] x [] [] x
| th_cons e es u us x k u' x' ks us' y : attempts e u x k u' x' -> through es us x' ks us' y ->
    through (e :: es) (u :: us) x (k :: ks) (u' :: us') y.

(** [stuck e u d k u']: the first [k] attempts all return None and resave [d] *)
Inductive stuck (e : nat) : U -> D -> nat -> U -> Prop :=
| st_zero u d : stuck e u d 0 u
| st_more u d u1 k u' : b_check B e u d = true -> attempt e u d = (u1, [d], ORet None) ->
    stuck e u1 d k u' -> stuck e u d (S k) u'.

Definition is_data (x : item) : Prop := exists d, x = IData d.
End Spec2.
