(** * PipelineModel: astropysics/pipeline.py

    Model of [Pipeline] (89-392), [PipelineElement] (394-477),
    [PipelineMessage] (479-551), [SetAttributeMessage] (553-592),
    [CallMethodMessage] (594-631), [_Accumulator] (633-679) and
    [AccumulateMessage] (684-716).

    Simplifications (all of them):
    - element objects are identified by a number ([eid]); all their
      attributes are one abstract value of type [U];
    - an element's [plProcess]/[plInteract] may change its own attributes, call
      [resaveData] any number of times and return/raise anything, but does not
      otherwise touch the pipeline object and does not look at it;
    - attribute names set through messages are ordinary data attributes (not
      "plProcess", "accumulator", ...). *)
From Coq Require Import List ZArith Lia Bool String.
From stdpp Require Import gmap.
From Verif Require Import PyBase.
Import ListNotations.

Section PipelineModel.

Context {D : Type}.   (* data objects that are not PipelineMessages *)
Context {U : Type}.   (* attribute state of an element *)

(** Target of a message: pipeline.py 498-509 (an object or a class). *)
Inductive target := TObj (e : nat) | TClass (c : nat).

(** What [deliverMessage] does. *)
Inductive msgkind :=
| MSetAttr (attrs : list (string * D))                          (* 553-592 *)
| MCall (methodname : string)                                   (* 594-631 *)
| MAccum (naccum : Z) (setattrname : option string)
         (filterfunc : option (list D -> res D))                (* 684-716 *)
| MUser (deliver : nat -> U -> U * option exn).                 (* user subclass *)

(** A message object; [m_id] is its identity, used for the mutable counter
    [nprocessed] (509). *)
Record msg := { m_id : nat; m_target : target; m_kind : msgkind }.

(** Things travelling through the queues. *)
Inductive item := IData (d : D) | IMsg (m : msg).

(** State of one [_Accumulator] (639-654). *)
Record acc := {
  a_n : Z; a_attr : option string; a_filter : option (list D -> res D);
  a_got : list D }.

(** State of an element object: its attributes, the stack of accumulators
    currently replacing plProcess/plInteract (each one remembers the previous
    methods as realPlProcess/realPlInteract, 646-652), and whether it has an
    attribute "accumulator" (653). *)
Record estate := { e_u : U; e_accs : list acc; e_hasacc : bool }.

(** Outcome of a call to plProcess / plInteract. *)
Inductive outcome := ORet (r : option item) | OExn (e : exn).

(** Result: new attributes, data passed to [resaveData] (in call order),
    outcome. *)
Record presult := { p_u : U; p_resave : list D; p_out : outcome }.

(** Behaviour of user supplied elements. *)
Record behav := {
  b_class : nat -> nat;                       (* elem.__class__ *)
  b_init : nat -> U;                          (* attributes before any change *)
  b_check : nat -> U -> D -> bool;            (* check_type(elem._plintype,data) passes *)
  b_process : nat -> U -> D -> presult;       (* elem.plProcess *)
  b_interact : nat -> U -> D -> presult;      (* elem.plInteract; default returns None *)
  b_setattr : U -> string -> D -> U;          (* setattr(elem,name,value) *)
  b_hasmeth : nat -> string -> bool;          (* hasattr(elem,methodname) *)
  b_oflist : list D -> D                      (* a Python list seen as a datum *)
}.

Variable B : behav.

(** Pipeline.__init__ (100-119): the three parallel lists, plus the mutable
    state of element objects and message counters.

    A deque is represented by the list of its items with the RIGHT end first:
    [pop()] takes the head, [append(x)] conses, [appendleft(x)] adds at the end
    of the list.  So the list reads in order of processing. *)
Record pstate := {
  elems : list nat;
  cycles : list nat;
  deqs : list (list item);
  heap : gmap nat estate;
  nproc : gmap nat nat }.

Definition init (es : list nat) (h : gmap nat estate) (np : gmap nat nat) : pstate :=
  {| elems := es; cycles := List.map (fun _ => 0) es;
     deqs := List.map (fun _ => []) es ++ [[]]; heap := h; nproc := np |}.

Definition est (h : gmap nat estate) (e : nat) : estate :=
  default {| e_u := b_init B e; e_accs := []; e_hasacc := false |} (h !! e).

Definition npr (n : gmap nat nat) (m : nat) : nat := default 0 (n !! m).

Definition with_deqs s q := {| elems := elems s; cycles := cycles s; deqs := q;
                               heap := heap s; nproc := nproc s |}.
Definition with_cycles s c := {| elems := elems s; cycles := c; deqs := deqs s;
                               heap := heap s; nproc := nproc s |}.
Definition with_heap s h := {| elems := elems s; cycles := cycles s; deqs := deqs s;
                               heap := h; nproc := nproc s |}.
Definition with_nproc s n := {| elems := elems s; cycles := cycles s; deqs := deqs s;
                               heap := heap s; nproc := n |}.

(** deque.appendleft / deque.append on the [i]-th deque of the list *)
Definition q_appendleft (q : list item) (x : item) : list item := q ++ [x].
Definition q_append (q : list item) (x : item) : list item := x :: q.
(** deque.extend(data): [data] is iterated from its left end, each item is
    [append]ed. The left end is the last of our list. *)
Definition q_extend (q data : list item) : list item := fold_left q_append (rev data) q.
(** deque.rotate(1): the right end is moved to the left end. *)
Definition q_rotate1 (q : list item) : list item :=
  match q with [] => [] | x :: t => t ++ [x] end.
Definition q_rotate (n : nat) (q : list item) : list item := Nat.iter n q_rotate1 q.

Definition upd_deq (i : Z) (f : list item -> list item) (s : pstate) : option pstate :=
  match py_get (deqs s) i with
  | Some q => match py_set (deqs s) i (f q) with
              | Some qs => Some (with_deqs s qs)
              | None => None
              end
  | None => None
  end.

(** isTarget (519-535): None = False, Some false = True, Some true = 'continue' *)
Definition isTarget (m : msg) (e : nat) : option bool :=
  match m_target m with
  | TClass c => if Nat.eqb (b_class B e) c then Some true else None
  | TObj t => if Nat.eqb e t then Some false else None
  end.

(** deliverMessage (590-592, 630-631, 715-716).  CallMethodMessage refers to
    the undefined global names [args], [kwargs]: NameError after the
    getattr. *)
Definition deliver (m : msg) (e : nat) (st : estate) : estate * option exn :=
  match m_kind m with
  | MSetAttr attrs =>
      ({| e_u := fold_left (fun u nv => b_setattr B u (fst nv) (snd nv)) attrs (e_u st);
          e_accs := e_accs st; e_hasacc := e_hasacc st |}, None)
  | MCall meth => (st, Some (if b_hasmeth B e meth then NameError else AttributeError))
  | MAccum n at_ ff =>
      ({| e_u := e_u st;
          e_accs := {| a_n := n; a_attr := at_; a_filter := ff; a_got := [] |} :: e_accs st;
          e_hasacc := true |}, None)
  | MUser f => let '(u, x) := f e (e_u st) in
      ({| e_u := u; e_accs := e_accs st; e_hasacc := e_hasacc st |}, x)
  end.

(** Result of a call of the element's current plProcess/plInteract on its
    full state. *)
Record eresult := { r_st : estate; r_resave : list D; r_out : outcome }.

Definition lift (st : estate) (p : presult) : eresult :=
  {| r_st := {| e_u := p_u p; e_accs := e_accs st; e_hasacc := e_hasacc st |};
     r_resave := p_resave p; r_out := p_out p |}.

(** elem.plProcess as currently bound: the element's own method, or the
    innermost accumulator's (656-659). *)
Definition cur_process (e : nat) (st : estate) (d : D) : eresult :=
  match e_accs st with
  | [] => lift st (b_process B e (e_u st) d)
  | a :: rest =>
      if (Z.of_nat (length (a_got a)) <? a_n a)%Z then
        {| r_st := {| e_u := e_u st;
                      e_accs := {| a_n := a_n a; a_attr := a_attr a; a_filter := a_filter a;
                                   a_got := a_got a ++ [d] |} :: rest;
                      e_hasacc := e_hasacc st |};
           r_resave := []; r_out := ORet None |}
      else {| r_st := st; r_resave := []; r_out := OExn AssertionError |}
  end.

(** _Accumulator.finish (667-679) for accumulator [a] with previous methods
    [rest].  The [finally] block restores the methods and deletes
    elem.accumulator, which raises AttributeError if it is not there. *)
Definition finish (st : estate) (a : acc) (rest : list acc) : eresult :=
  let filtered := match a_filter a with
                  | None => Ok (b_oflist B (a_got a))
                  | Some f => f (a_got a)
                  end in
  let '(u, rs, x) :=
    match filtered with
    | Ok v => match a_attr a with
              | None => (e_u st, [v], None)
              | Some nm => (b_setattr B (e_u st) nm v, [], None)
              end
    | Raise e => (e_u st, [], Some e)
    | OutOfFuel => (e_u st, [], Some (UserExn 0))
    end in
  let x' := if e_hasacc st then x else Some AttributeError in
  {| r_st := {| e_u := u; e_accs := rest; e_hasacc := false |};
     r_resave := rs;
     r_out := match x' with Some e => OExn e | None => ORet None end |}.

(** elem.plInteract as currently bound (661-665). *)
Definition cur_interact (e : nat) (st : estate) (d : D) : eresult :=
  match e_accs st with
  | [] => lift st (b_interact B e (e_u st) d)
  | a :: rest =>
      if (Z.of_nat (length (a_got a)) =? a_n a)%Z then finish st a rest
      else {| r_st := st; r_resave := []; r_out := ORet None |}
  end.

(** Return values of processStage (215-272). *)
Inductive rv := RFalse | RTrue | RDelivered | RDeliveredPassed | RPassed.

(** resaveData (448-455): [pipeline._datadeques[elemi].append(data)] for each
    call, in order. *)
Definition resave (i : Z) (ds : list D) (s : pstate) : option pstate :=
  fold_left (fun os d => match os with
                         | Some s => upd_deq i (fun q => q_append q (IData d)) s
                         | None => None
                         end) ds (Some s).

(** One of plProcess / plInteract run inside processStage: update the element
    object and perform the resaves. *)
Definition run_call (i : Z) (e : nat) (r : eresult) (s : pstate) : option pstate :=
  resave i (r_resave r) (with_heap s (<[e := r_st r]> (heap s))).

(** [except: self._datadeques[stagenum].append(data); raise] (270-272) *)
Definition put_back (i : Z) (d : D) (x : exn) (s : pstate) : pstate * res rv :=
  match upd_deq i (fun q => q_append q (IData d)) s with
  | Some s' => (s', Raise x)
  | None => (s, Raise IndexError)
  end.

(** [self._datadeques[stagenum+1].appendleft(newdata);
     self._cycles[stagenum] = 0; return True] (262-264, 266-268).  An exception here would
    be caught by the same [except]. *)
Definition pass_on (i : Z) (d : D) (y : item) (s : pstate) : pstate * res rv :=
  match upd_deq (i+1) (fun q => q_appendleft q y) s with
  | Some s' => match py_set (cycles s') i 0 with
               | Some c => (with_cycles s' c, Ok RTrue)
               | None => put_back i d IndexError s'
               end
  | None => put_back i d IndexError s
  end.

(** processStage (215-272) *)
Definition processStage (i : Z) (s : pstate) : pstate * res rv :=
  match py_get (elems s) i with
  | None => (s, Raise IndexError)                       (* self._elements[stagenum] *)
  | Some e =>
  match py_get (deqs s) i with
  | None | Some [] => (s, Raise IndexError)             (* .pop() *)
  | Some (x :: q) =>
  match py_set (deqs s) i q with
  | None => (s, Raise IndexError)
  | Some qs =>
  let s1 := with_deqs s qs in
  match x with
  | IMsg m =>
      let istarg := isTarget m e in
      (* if istarg: msg(st) -- __call__ (511-517) counts first, then delivers *)
      let '(s2, x2) :=
        match istarg with
        | None => (s1, None)
        | Some _ =>
            let s1' := with_nproc s1 (<[m_id m := S (npr (nproc s1) (m_id m))]> (nproc s1)) in
            let '(st', xe) := deliver m e (est (heap s1') e) in
            (with_heap s1' (<[e := st']> (heap s1')), xe)
        end in
      match x2 with
      | Some xe => (s2, Raise xe)
      | None =>
          match istarg with
          | Some false => (s2, Ok RDelivered)
          | _ =>
              let rc := match istarg with Some _ => RDeliveredPassed | None => RPassed end in
              if (i =? Z.of_nat (length (elems s2)) - 1)%Z then
                if Nat.eqb (npr (nproc s2) (m_id m)) 0
                then (s2, Raise PipelineError)
                else (s2, Ok rc)
              else match upd_deq (i+1) (fun q => q_appendleft q (IMsg m)) s2 with
                   | Some s3 => (s3, Ok rc)
                   | None => (s2, Raise IndexError)
                   end
          end
      end
  | IData d =>
      if negb (b_check B e (e_u (est (heap s1) e)) d) then (s1, Raise TypeError)
      else
      let r := cur_process e (est (heap s1) e) d in
      match run_call i e r s1 with
      | None => put_back i d IndexError s1
      | Some s2 =>
      match r_out r with
      | OExn x => put_back i d x s2
      | ORet (Some y) => pass_on i d y s2
      | ORet None =>
          let r2 := cur_interact e (est (heap s2) e) d in
          match run_call i e r2 s2 with
          | None => put_back i d IndexError s2
          | Some s3 =>
          match r_out r2 with
          | OExn x => put_back i d x s3
          | ORet (Some y) => pass_on i d y s3
          | ORet None =>
              match py_get (cycles s3) i with
              | Some c => match py_set (cycles s3) i (S c) with
                          | Some cs => (with_cycles s3 cs, Ok RFalse)
                          | None => put_back i d IndexError s3
                          end
              | None => put_back i d IndexError s3
              end
          end
          end
      end
      end
  end
  end
  end
  end.

(** feed (170-174), feedMany (176-181).  deque list is never empty. *)
Definition feed (x : item) (s : pstate) : pstate * res unit :=
  match upd_deq 0 (fun q => q_appendleft q x) s with
  | Some s' => (s', Ok tt)
  | None => (s, Raise IndexError)
  end.

Fixpoint feedMany (xs : list item) (s : pstate) : pstate * res unit :=
  match xs with
  | [] => (s, Ok tt)
  | x :: r => match feed x s with
              | (s', Ok _) => feedMany r s'
              | (s', Raise e) => (s', Raise e)
              | (s', OutOfFuel) => (s', OutOfFuel)
              end
  end.

(** addElement (129-147) *)
Definition addElement (i : Z) (e : nat) (s : pstate) : pstate :=
  {| elems := py_insert i e (elems s);
     cycles := py_insert i 0 (cycles s);
     deqs := py_insert i [] (deqs s);
     heap := heap s; nproc := nproc s |}.

(** removeElement (149-168), statement by statement *)
Definition removeElement (i : Z) (keepdata : bool) (s : pstate) : pstate * res nat :=
  match py_pop (elems s) i with
  | None => (s, Raise IndexError)
  | Some (e, es) =>
  let s1 := {| elems := es; cycles := cycles s; deqs := deqs s; heap := heap s; nproc := nproc s |} in
  match py_pop (deqs s1) i with
  | None => (s1, Raise IndexError)
  | Some (data, qs) =>
  let s2 := with_deqs s1 qs in
  let os3 := if keepdata
             then match upd_deq i (fun q => q_extend q data) s2 with
                  | Some s3 => upd_deq i (q_rotate (length data)) s3
                  | None => None
                  end
             else Some s2 in
  match os3 with
  | None => (s2, Raise IndexError)
  | Some s3 =>
  match py_pop (cycles s3) i with
  | None => (s3, Raise IndexError)
  | Some (_, cs) => (with_cycles s3 cs, Ok e)
  end
  end
  end
  end.

(** The inner [while self._cycles[st]] loop of processToStage (367-370).
    [lim = None] is [repeat is True]. *)
Fixpoint retry_loop (fuel : nat) (i : Z) (lim : option Z) (s : pstate) (acc : list rv)
  : pstate * res (list rv) :=
  match fuel with
  | O => (s, OutOfFuel)
  | S fuel' =>
    match py_get (cycles s) i with
    | None => (s, Raise IndexError)
    | Some O => (s, Ok acc)
    | Some (S c) =>
        if match lim with Some l => (l <=? Z.of_nat (S c))%Z | None => false end
        then (s, Raise PipelineError)
        else match processStage i s with
             | (s', Ok r) => retry_loop fuel' i lim s' (acc ++ [r])
             | (s', Raise e) => (s', Raise e)
             | (s', OutOfFuel) => (s', OutOfFuel)
             end
    end
  end.

(** The outer [while len(dd)>0] loop (365-370): the result of the first
    processStage call of each round is discarded. *)
Fixpoint drain_loop (fuel : nat) (i : Z) (lim : option Z) (s : pstate) (acc : list rv)
  : pstate * res (list rv) :=
  match fuel with
  | O => (s, OutOfFuel)
  | S fuel' =>
    match py_get (deqs s) i with
    | None => (s, Raise IndexError)
    | Some [] => (s, Ok acc)
    | Some (_ :: _) =>
        match processStage i s with
        | (s1, Raise e) => (s1, Raise e)
        | (s1, OutOfFuel) => (s1, OutOfFuel)
        | (s1, Ok _) =>
            match retry_loop fuel' i lim s1 acc with
            | (s2, Ok acc') => drain_loop fuel' i lim s2 acc'
            | (s2, Raise e) => (s2, Raise e)
            | (s2, OutOfFuel) => (s2, OutOfFuel)
            end
        end
    end
  end.

(** The argument [repeat]: False/0, True, or an integer. *)
Inductive repeat_arg := RepFalse | RepTrue | RepInt (n : Z).

Definition rep_lim (r : repeat_arg) : option (option Z) :=
  match r with
  | RepFalse => None
  | RepTrue => Some None
  | RepInt n => if (n =? 0)%Z then None else Some (Some n)
  end.

(** An entry of the result list: a list of codes, or one code. *)
Inductive stage_result := SRList (l : list rv) | SROne (r : rv).

Fixpoint stages_loop (fuel : nat) (sts : list nat) (r : option (option Z)) (s : pstate)
    (acc : list stage_result) : pstate * res (list stage_result) :=
  match sts with
  | [] => (s, Ok acc)
  | st :: rest =>
      match py_get (deqs s) (Z.of_nat st) with
      | None => (s, Raise IndexError)
      | Some q =>
        match r with
        | Some lim =>
            match drain_loop fuel (Z.of_nat st) lim s [] with
            | (s', Ok l) => stages_loop fuel rest r s' (acc ++ [SRList l])
            | (s', Raise e) => (s', Raise e)
            | (s', OutOfFuel) => (s', OutOfFuel)
            end
        | None =>
            match q with
            | [] => stages_loop fuel rest r s (acc ++ [SROne RFalse])
            | _ :: _ =>
                match processStage (Z.of_nat st) s with
                | (s', Ok c) => stages_loop fuel rest r s' (acc ++ [SROne c])
                | (s', Raise e) => (s', Raise e)
                | (s', OutOfFuel) => (s', OutOfFuel)
                end
            end
        end
      end
  end.

(** processToStage (335-376); Python [range(k)] is empty for k<=0. *)
Definition processToStage (fuel : nat) (stagenum : Z) (r : repeat_arg) (s : pstate)
  : pstate * res (list stage_result) :=
  let n := if (0 <=? stagenum)%Z then (stagenum + 1)%Z
           else (Z.of_nat (length (deqs s)) + stagenum)%Z in
  stages_loop fuel (seq 0 (Z.to_nat n)) (rep_lim r) s [].

(** process (274-294) *)
Definition process (fuel : nat) (r : repeat_arg) (s : pstate) := processToStage fuel (-1) r s.

(** extract (184-213) *)
Inductive extracted := XOne (x : item) | XAll (xs : list item).

Definition extract (fuel : nat) (extractall autoprocess : bool) (s : pstate)
  : pstate * res extracted :=
  let '(s1, r) := if autoprocess then processToStage fuel (-1) RepTrue s else (s, Ok []) in
  match r with
  | Raise e => (s1, Raise e)
  | OutOfFuel => (s1, OutOfFuel)
  | Ok _ =>
    match py_get (deqs s1) (-1) with
    | None => (s1, Raise IndexError)
    | Some [] => (s1, Raise IndexError)
    | Some (x :: q) =>
        if extractall then
          (* list(reversed(d)): from the right end, i.e. our order *)
          match py_set (deqs s1) (-1) [] with
          | Some qs => (with_deqs s1 qs, Ok (XAll (x :: q)))
          | None => (s1, Raise IndexError)
          end
        else
          match py_set (deqs s1) (-1) q with
          | Some qs => (with_deqs s1 qs, Ok (XOne x))
          | None => (s1, Raise IndexError)
          end
    end
  end.

(** The [while self._cycles[stage]] loop of processSingle (325-330). *)
Fixpoint single_retry (fuel : nat) (i : Z) (limit : Z) (removefailed : bool)
    (pre : item) (s : pstate) : pstate * res unit :=
  match fuel with
  | O => (s, OutOfFuel)
  | S fuel' =>
    match py_get (cycles s) i with
    | None => (s, Raise IndexError)
    | Some O => (s, Ok tt)
    | Some (S c) =>
        if (negb (limit =? 0)%Z && (limit <=? Z.of_nat (S c))%Z)%bool then
          if removefailed then (s, Raise PipelineError)
          else match upd_deq i (fun q => q_append q pre) s with
               | Some s' => (s', Raise PipelineError)
               | None => (s, Raise IndexError)
               end
        else match processStage i s with
             | (s', Ok _) => single_retry fuel' i limit removefailed pre s'
             | (s', Raise e) => (s', Raise e)
             | (s', OutOfFuel) => (s', OutOfFuel)
             end
    end
  end.

Fixpoint single_stages (fuel : nat) (sts : list nat) (limit : Z) (removefailed : bool)
    (s : pstate) : pstate * res unit :=
  match sts with
  | [] => (s, Ok tt)
  | st :: rest =>
      match py_get (deqs s) (Z.of_nat st) with
      | None | Some [] => (s, Raise IndexError)            (* [-1] of an empty deque *)
      | Some (pre :: _) =>
          match processStage (Z.of_nat st) s with
          | (s1, Ok _) =>
              match single_retry fuel (Z.of_nat st) limit removefailed pre s1 with
              | (s2, Ok _) => single_stages fuel rest limit removefailed s2
              | (s2, Raise e) => (s2, Raise e)
              | (s2, OutOfFuel) => (s2, OutOfFuel)
              end
          | (s1, Raise e) => (s1, Raise e)
          | (s1, OutOfFuel) => (s1, OutOfFuel)
          end
      end
  end.

(** processSingle (296-333) *)
Definition processSingle (fuel : nat) (input : item) (limit : Z) (removefailed : bool)
    (s : pstate) : pstate * res item :=
  match upd_deq 0 (fun q => q_append q input) s with
  | None => (s, Raise IndexError)
  | Some s1 =>
    match single_stages fuel (seq 0 (length (elems s1))) limit removefailed s1 with
    | (s2, Raise e) => (s2, Raise e)
    | (s2, OutOfFuel) => (s2, OutOfFuel)
    | (s2, Ok _) =>
        match py_get (deqs s2) (-1) with
        | None | Some [] => (s2, Raise IndexError)
        | Some (x :: q) =>
            match py_set (deqs s2) (-1) q with
            | Some qs => (with_deqs s2 qs, Ok x)
            | None => (s2, Raise IndexError)
            end
        end
    end
  end.

(** clear (378-392); [None] is all stages, an int is a singleton sequence. *)
Fixpoint clear_seq (sts : list Z) (s : pstate) : pstate * res unit :=
  match sts with
  | [] => (s, Ok tt)
  | i :: r => match upd_deq i (fun _ => []) s with
              | Some s' => clear_seq r s'
              | None => (s, Raise IndexError)
              end
  end.

Definition clear (stages : option (list Z)) (s : pstate) : pstate * res unit :=
  clear_seq (match stages with
             | Some l => l
             | None => List.map Z.of_nat (seq 0 (length (elems s) + 1))
             end) s.

(** ** The public interface as one step function *)
Inductive op :=
| OpAdd (i : Z) (e : nat)
| OpRemove (i : Z) (keepdata : bool)
| OpFeed (x : item)
| OpFeedMany (xs : list item)
| OpProcessStage (i : Z)
| OpProcessToStage (fuel : nat) (i : Z) (r : repeat_arg)
| OpProcess (fuel : nat) (r : repeat_arg)
| OpProcessSingle (fuel : nat) (x : item) (limit : Z) (removefailed : bool)
| OpExtract (fuel : nat) (extractall autoprocess : bool)
| OpClear (stages : option (list Z)).

Definition step (s : pstate) (o : op) : pstate :=
  match o with
  | OpAdd i e => addElement i e s
  | OpRemove i k => fst (removeElement i k s)
  | OpFeed x => fst (feed x s)
  | OpFeedMany xs => fst (feedMany xs s)
  | OpProcessStage i => fst (processStage i s)
  | OpProcessToStage fuel i r => fst (processToStage fuel i r s)
  | OpProcess fuel r => fst (process fuel r s)
  | OpProcessSingle fuel x l rf => fst (processSingle fuel x l rf s)
  | OpExtract fuel a b => fst (extract fuel a b s)
  | OpClear st => fst (clear st s)
  end.

Definition run (s : pstate) (ops : list op) : pstate := fold_left step ops s.

End PipelineModel.
