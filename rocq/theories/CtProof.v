(** * CtProof: C136, check_type accepts exactly the values of the given types. *)
From Coq Require Import List Arith Bool Lia.
From Verif Require Import PyBase CtModel.
Import ListNotations.

Section Ct.
Context {V C D : Type}.
Implicit Types (w : world V C D) (v : V) (l : list (tspec C D)).

(** ** Specification *)
(** the value is of the type named by one entry *)
Inductive of_type w v : tspec C D -> Prop :=
| ot_array d e : arr_dtype w v = Some e -> dtype_eqb w e d = true -> of_type w v (TDtype d)
| ot_class c : isinst w v c = true -> of_type w v (TClass c).
(** a tuple of a length other than one *)
Definition odd_tuple w v := exists n, tuple_len w v = Some n /\ n <> 1.
Definition is_dtype (s : tspec C D) := exists d, s = TDtype d.
(** tuples are not arrays *)
Definition sane w := forall v n, tuple_len w v = Some n -> arr_dtype w v = None.

Lemma fmt_odd w v : fmt_ok w v = false <-> odd_tuple w v.
Proof.
  unfold fmt_ok, odd_tuple. split.
  - destruct (tuple_len w v) as [n|]; [|discriminate]. rewrite Nat.eqb_neq. eauto.
  - intros (n & -> & H). now apply Nat.eqb_neq.
Qed.
Lemma of_type_dec w v s : {of_type w v s} + {~ of_type w v s}.
Proof.
  destruct s as [d|c|].
  - destruct (arr_dtype w v) as [e|] eqn:E.
    + destruct (dtype_eqb w e d) eqn:Q; [left; econstructor; eauto|right; intro H; inversion H; subst; congruence].
    + right. intro H; inversion H; subst; congruence.
  - destruct (isinst w v c) eqn:E; [left; now constructor|right; intro H; inversion H; subst; congruence].
  - right. intro H; inversion H.
Qed.
Lemma loop_hit w v s l : of_type w v s -> ct_loop w (s :: l) v = Ok tt.
Proof. intros [d e H1 H2|c H]; simpl; [rewrite H1, H2|rewrite H]; reflexivity. Qed.
Lemma loop_miss w v s l : ~ of_type w v s ->
  ct_loop w (s :: l) v = ct_loop w l v /\ s <> TOther /\ (is_dtype s -> sane w -> ~ odd_tuple w v)
  \/ ct_loop w (s :: l) v = Raise TypeError /\ (s = TOther \/ is_dtype s /\ odd_tuple w v).
Proof.
  intros H. destruct s as [d|c|]; simpl.
  - destruct (arr_dtype w v) as [e|] eqn:E.
    + left. destruct (dtype_eqb w e d) eqn:Q; [exfalso; apply H; econstructor; eauto|].
      split; [reflexivity|split; [discriminate|]]. intros _ S (n & Hn & _). apply S in Hn. congruence.
    + destruct (fmt_ok w v) eqn:F.
      * left. split; [reflexivity|split; [discriminate|]]. intros _ _ O. apply fmt_odd in O. congruence.
      * right. apply fmt_odd in F. split; [reflexivity|right]. split; [now exists d|exact F].
  - left. destruct (isinst w v c) eqn:Q; [exfalso; apply H; now constructor|].
    split; [reflexivity|split; [discriminate|]]. intros [d Hd]; discriminate.
  - right. auto.
Qed.
Lemma loop_two w v l : ct_loop w l v = Ok tt \/ ct_loop w l v = Raise TypeError.
Proof.
  induction l as [|s l IH]; [now right|].
  destruct (of_type_dec w v s) as [H|H]; [left; now apply loop_hit|].
  destruct (loop_miss w v s l H) as [(-> & _)|(-> & _)]; auto.
Qed.

(** ** Theorems *)
(** None, whatever the types: only [acceptnone] counts *)
Theorem C136_none w t : check_type w t None true = Ok tt /\ check_type w t None false = Raise TypeError.
Proof. split; reflexivity. Qed.
(** acceptnone has no bearing on any other value *)
Theorem C136_acceptnone_only_none w t v a b : check_type w t (Some v) a = check_type w t (Some v) b.
Proof. reflexivity. Qed.
Theorem C136_no_types w v a : check_type w NoTypes (Some v) a = Ok tt.
Proof. reflexivity. Qed.
(** every sequence: accepted, or TypeError, nothing else *)
Theorem C136_seq_outcomes w l v a : check_type w (Seq l) (Some v) a = Ok tt \/ check_type w (Seq l) (Some v) a = Raise TypeError.
Proof. apply loop_two. Qed.
(** a value accepted is of one of the types, for every value and sequence *)
Theorem C136_seq_sound w l v a : check_type w (Seq l) (Some v) a = Ok tt -> exists s, In s l /\ of_type w v s.
Proof.
  simpl. induction l as [|s l IH]; [discriminate|]. intros H.
  destruct (of_type_dec w v s) as [T|T]; [exists s; simpl; auto|].
  destruct (loop_miss w v s l T) as [(E & _)|(E & _)]; rewrite E in H; [|discriminate].
  destruct (IH H) as (s' & I & O). exists s'. simpl; auto.
Qed.
(** a sequence of dtypes and classes, a value not a tuple (or a tuple of one): exactly the values of one of the types *)
Theorem C136_seq w l v a : ~ In TOther l -> ~ odd_tuple w v ->
  (check_type w (Seq l) (Some v) a = Ok tt <-> exists s, In s l /\ of_type w v s).
Proof.
  intros NO NT. split; [apply C136_seq_sound|]. simpl. induction l as [|s l IH]; [intros (s & [] & _)|].
  intros (s' & I & O). destruct (of_type_dec w v s) as [T|T]; [now apply loop_hit|].
  destruct (loop_miss w v s l T) as [(E & _)|(_ & [->|(_ & B)])].
  - rewrite E. apply IH; [intro; apply NO; simpl; auto|]. destruct I as [->|I]; [contradiction|eauto].
  - exfalso. apply NO. simpl; auto.
  - contradiction.
Qed.
(** classes only: exactly the values of one of them, tuples included *)
Theorem C136_seq_classes w cs v a :
  check_type w (Seq (map TClass cs)) (Some v) a = Ok tt <-> exists c, In c cs /\ isinst w v c = true.
Proof.
  simpl. induction cs as [|c cs IH]; simpl.
  - split; [discriminate|intros (c & [] & _)].
  - destruct (isinst w v c) eqn:E; simpl.
    + split; [eauto|reflexivity].
    + rewrite IH. split; intros (c' & I & H); exists c'; [auto|]. destruct I as [->|I]; [congruence|auto].
Qed.
(** every sequence and value: the first entry of the value's type must come before any entry that is no type and,
    when the value is a tuple not of length one, before any dtype *)
Theorem C136_seq_exact w l v a : sane w ->
  (check_type w (Seq l) (Some v) a = Ok tt <->
   exists p s q, l = p ++ s :: q /\ of_type w v s /\ ~ In TOther p /\ (odd_tuple w v -> forall x, In x p -> ~ is_dtype x)).
Proof.
  intros S. simpl. induction l as [|s l IH].
  - split; [discriminate|]. intros ([|] & s & q & E & _); discriminate.
  - destruct (of_type_dec w v s) as [T|T].
    + rewrite loop_hit by assumption. split; [|reflexivity]. intros _. exists [], s, l. simpl. intuition.
    + destruct (loop_miss w v s l T) as [(E & NO & ND)|(E & B)]; rewrite E.
      * rewrite IH. split.
        -- intros (p & s' & q & -> & O & N & F). exists (s :: p), s', q. split; [reflexivity|]. split; [exact O|]. split.
           ++ simpl. intros [->|I]; [congruence|contradiction].
           ++ intros OT x [<-|I]; [intro I; now apply (ND I S)|now apply F].
        -- intros ([|s0 p] & s' & q & Q & O & N & F); injection Q as -> ->; [contradiction|].
           exists p, s', q. split; [reflexivity|]. split; [exact O|]. split; [intro; apply N; simpl; auto|].
           intros OT x I. apply F; simpl; auto.
      * split; [discriminate|]. intros ([|s0 p] & s' & q & Q & O & N & F); injection Q as -> ->; [contradiction|].
        exfalso. destruct B as [->|(I & OT)]; [apply N; simpl; auto|]. apply (F OT s0); simpl; auto.
Qed.
(** the empty sequence accepts nothing but None *)
Theorem C136_seq_empty w v a : check_type w (Seq []) (Some v) a = Raise TypeError.
Proof. reflexivity. Qed.
(** more types never reject a value accepted with fewer, when added at the end *)
Theorem C136_seq_more w l r v a : check_type w (Seq l) (Some v) a = Ok tt -> check_type w (Seq (l ++ r)) (Some v) a = Ok tt.
Proof.
  simpl. induction l as [|s l IH]; [discriminate|]. intros H. change ((s :: l) ++ r) with (s :: (l ++ r)).
  destruct (of_type_dec w v s) as [T|T]; [now apply loop_hit|].
  destruct (loop_miss w v s l T) as [(E & _)|(E & _)]; rewrite E in H; [|discriminate].
  rewrite <- (IH H). destruct s as [d|c|]; simpl in *.
  - destruct (arr_dtype w v) as [e|]; [destruct (dtype_eqb w e d)|destruct (fmt_ok w v)]; simpl in *; auto; rewrite IH in *; congruence.
  - destruct (isinst w v c); simpl in *; auto. now rewrite IH.
  - congruence.
Qed.
(** one class: the instances; one dtype: the arrays of it; anything else TypeError *)
Theorem C136_one_class w c v a :
  (isinst w v c = true -> check_type w (OneClass c) (Some v) a = Ok tt) /\
  (isinst w v c = false -> check_type w (OneClass c) (Some v) a = Raise TypeError).
Proof. simpl. split; intros ->; reflexivity. Qed.
Theorem C136_one_dtype w d v a :
  (check_type w (OneDtype d) (Some v) a = Ok tt <-> exists e, arr_dtype w v = Some e /\ dtype_eqb w e d = true) /\
  (check_type w (OneDtype d) (Some v) a = Ok tt \/ check_type w (OneDtype d) (Some v) a = Raise TypeError).
Proof.
  split; [|apply (loop_two w v [TDtype d])]. simpl. destruct (arr_dtype w v) as [e|].
  - destruct (dtype_eqb w e d) eqn:E; simpl; split; try discriminate; eauto. intros (e' & Q & H). congruence.
  - destruct (fmt_ok w v); split; try discriminate; intros (e & Q & _); discriminate.
Qed.
(** a function: called with the value; true accepts, false is TypeError, its exception goes to the caller *)
Theorem C136_callable w f v a :
  (f v = Ok true -> check_type w (Callable f) (Some v) a = Ok tt) /\
  (f v = Ok false -> check_type w (Callable f) (Some v) a = Raise TypeError) /\
  (forall e, f v = Raise e -> check_type w (Callable f) (Some v) a = Raise e).
Proof. simpl. split; [|split]; [intros ->|intros ->|intros e ->]; reflexivity. Qed.
(** ... and is not called with None *)
Theorem C136_callable_none w f g b : check_type w (Callable f) None b = check_type w (Callable g) None b.
Proof. reflexivity. Qed.
(** other types: ValueError for every value but None, and only then (a function aside) *)
Theorem C136_bad w t v a : (forall f, t <> Callable f) -> (check_type w t (Some v) a = Raise ValueError <-> t = BadTypes).
Proof.
  intros NC. split; [|intros ->; reflexivity]. destruct t; simpl; intros H; try reflexivity; try discriminate.
  - destruct (loop_two w v l) as [E|E]; congruence.
  - destruct (loop_two w v [TClass c]) as [E|E]; simpl in E; congruence.
  - destruct (loop_two w v [TDtype d]) as [E|E]; simpl in E; congruence.
  - exfalso. now apply (NC f).
Qed.
End Ct.

(** ** Findings *)
(** values: an int, a pair, a float array, a tuple of one; classes: 0 int, 1 tuple, 2 ndarray; dtypes: 0 float, 1 int *)
Inductive ev := EInt | EPair | EArr | ESingle.
Definition ew : world ev nat nat :=
  World (fun v c => match v, c with EInt, 0 | EPair, 1 | ESingle, 1 | EArr, 2 => true | _, _ => false end)
        (fun v => match v with EArr => Some 0 | _ => None end)
        (fun v => match v with EPair => Some 2 | ESingle => Some 1 | _ => None end) Nat.eqb.
Lemma ew_sane : sane ew.
Proof. intros [] n; simpl; congruence. Qed.
(** the order of the types is not irrelevant: a pair is of type tuple, yet rejected when a dtype comes first *)
Theorem C136_order_irrelevant_refuted :
  ~ (forall (w : world ev nat nat) s t v, sane w -> s <> TOther -> t <> TOther ->
       check_type w (Seq [s; t]) (Some v) true = check_type w (Seq [t; s]) (Some v) true).
Proof. intros H. specialize (H ew (TDtype 0) (TClass 1) EPair ew_sane). simpl in H. now discriminate H. Qed.
Theorem C136_seq_complete_refuted :
  ~ (forall (w : world ev nat nat) l v, sane w -> ~ In TOther l -> (exists s, In s l /\ of_type w v s) ->
       check_type w (Seq l) (Some v) true = Ok tt).
Proof.
  intros H. specialize (H ew [TDtype 0; TClass 1] EPair ew_sane). simpl in H.
  discriminate H; [intuition discriminate|]. exists (TClass 1). split; [auto|now constructor].
Qed.

(** ** Examples *)
Example C136_ex_single : check_type ew (Seq [TDtype 0; TClass 1]) (Some ESingle) true = Ok tt. Proof. reflexivity. Qed.
Example C136_ex_pair : check_type ew (Seq [TClass 1; TDtype 0]) (Some EPair) true = Ok tt. Proof. reflexivity. Qed.
Example C136_ex_hyp : ~ In TOther [TDtype 1; TClass 2] /\ ~ odd_tuple ew EArr /\ check_type ew (Seq [TDtype 1; TClass 2]) (Some EArr) true = Ok tt.
Proof. split; [simpl; intuition discriminate|]. split; [intros (n & H & _); discriminate|reflexivity]. Qed.
Example C136_ex_rej : check_type ew (Seq [TDtype 1; TClass 1]) (Some EArr) true = Raise TypeError. Proof. reflexivity. Qed.
