(** * PyBase: Python run-time conventions used by all the models.

    Python exceptions are values ([Raise e]); loops whose termination is not
    structural take explicit fuel, and running out of it is the separate
    outcome [OutOfFuel] (it never looks like a normal result). *)
From Coq Require Import List ZArith Lia Bool.
Import ListNotations.

(** The Python exception classes raised by the modelled code.  [UserExn n]
    stands for an exception raised by user supplied code (callbacks). *)
Inductive exn : Type :=
| IndexError | KeyError | TypeError | ValueError | AttributeError
| NameError | AssertionError | NotImplementedError
| PipelineError | CycleError | RangeError | ZeroDivisionError
| UserExn (n : nat).

Inductive res (A : Type) : Type :=
| Ok (a : A)
| Raise (e : exn)
| OutOfFuel.
Arguments Ok {A} a.
Arguments Raise {A} e.
Arguments OutOfFuel {A}.

(** Python sequence indexing [l[i]]: a negative index counts from the end;
    out of range is an IndexError ([None]). *)
Definition py_index (len : nat) (i : Z) : option nat :=
  if (0 <=? i)%Z
  then (if (i <? Z.of_nat len)%Z then Some (Z.to_nat i) else None)
  else (if (0 <=? i + Z.of_nat len)%Z then Some (Z.to_nat (i + Z.of_nat len)) else None).

(** Position used by [list.insert(i,x)]: negative counts from the end, then
    both ends clamp; never raises. *)
Definition py_insert_pos (len : nat) (i : Z) : nat :=
  if (0 <=? i)%Z then Nat.min (Z.to_nat i) len
  else Z.to_nat (Z.max 0 (i + Z.of_nat len)).

Section Lists.
Context {A : Type}.

Definition insert_at (n : nat) (x : A) (l : list A) : list A :=
  firstn n l ++ x :: skipn n l.

Definition remove_at (n : nat) (l : list A) : list A :=
  firstn n l ++ skipn (S n) l.

Fixpoint set_nth (n : nat) (x : A) (l : list A) : list A :=
  match l, n with
  | [], _ => []
  | _ :: t, O => x :: t
  | h :: t, S k => h :: set_nth k x t
  end.

(** [l.insert(i,x)] *)
Definition py_insert (i : Z) (x : A) (l : list A) : list A :=
  insert_at (py_insert_pos (length l) i) x l.

(** [l[i]] *)
Definition py_get (l : list A) (i : Z) : option A :=
  match py_index (length l) i with
  | Some n => nth_error l n
  | None => None
  end.

(** [l[i] = x] *)
Definition py_set (l : list A) (i : Z) (x : A) : option (list A) :=
  match py_index (length l) i with
  | Some n => Some (set_nth n x l)
  | None => None
  end.

(** [l.pop(i)], also [del l[i]] when the value is ignored *)
Definition py_pop (l : list A) (i : Z) : option (A * list A) :=
  match py_index (length l) i with
  | Some n => match nth_error l n with
              | Some x => Some (x, remove_at n l)
              | None => None
              end
  | None => None
  end.

(** ** Facts *)

Lemma set_nth_length n x (l : list A) : length (set_nth n x l) = length l.
Proof. revert n; induction l as [|h t IH]; intros [|n]; simpl; auto. Qed.

Lemma insert_at_length n x (l : list A) : length (insert_at n x l) = S (length l).
Proof.
  unfold insert_at. rewrite app_length. simpl.
  rewrite <- plus_n_Sm, <- app_length, firstn_skipn. reflexivity.
Qed.

Lemma remove_at_length n (l : list A) :
  n < length l -> S (length (remove_at n l)) = length l.
Proof.
  intros H. unfold remove_at. rewrite app_length, firstn_length, skipn_length. lia.
Qed.

Lemma nth_error_set_nth_eq n x (l : list A) :
  n < length l -> nth_error (set_nth n x l) n = Some x.
Proof.
  revert n; induction l as [|h t IH]; intros [|n] H; simpl in *; try lia; auto.
  apply IH; lia.
Qed.

Lemma nth_error_set_nth_neq n m x (l : list A) :
  n <> m -> nth_error (set_nth n x l) m = nth_error l m.
Proof.
  revert n m; induction l as [|h t IH]; intros [|n] [|m] H; simpl; auto; try congruence.
Qed.

Lemma set_nth_comm n m x y (l : list A) :
  n <> m -> set_nth n x (set_nth m y l) = set_nth m y (set_nth n x l).
Proof.
  revert n m; induction l as [|h t IH]; intros [|n] [|m] H; simpl; auto; try congruence.
  f_equal; apply IH; congruence.
Qed.

Lemma set_nth_set_nth n x y (l : list A) :
  set_nth n x (set_nth n y l) = set_nth n x l.
Proof. revert n; induction l as [|h t IH]; intros [|n]; simpl; auto. f_equal; auto. Qed.

Lemma set_nth_same n x (l : list A) :
  nth_error l n = Some x -> set_nth n x l = l.
Proof.
  revert n; induction l as [|h t IH]; intros [|n] H; simpl in *; try discriminate.
  - congruence.
  - f_equal; auto.
Qed.

Lemma set_nth_ge n x (l : list A) : length l <= n -> set_nth n x l = l.
Proof.
  revert n; induction l as [|h t IH]; intros [|n] H; simpl in *; auto; try lia.
  f_equal; apply IH; lia.
Qed.

Lemma set_nth_app_l n x (l l' : list A) :
  n < length l -> set_nth n x (l ++ l') = set_nth n x l ++ l'.
Proof.
  revert n; induction l as [|h t IH]; intros [|n] H; simpl in *; auto; try lia.
  f_equal; apply IH; lia.
Qed.

Lemma set_nth_firstn_skipn n x (l : list A) :
  n < length l -> set_nth n x l = firstn n l ++ x :: skipn (S n) l.
Proof.
  revert n; induction l as [|h t IH]; intros [|n] H; simpl in *; auto; try lia.
  f_equal. rewrite IH by lia. reflexivity.
Qed.

Lemma py_index_nonneg len (n : nat) :
  n < len -> py_index len (Z.of_nat n) = Some n.
Proof.
  intros H. unfold py_index.
  destruct (Z.leb_spec 0 (Z.of_nat n)); [|lia].
  destruct (Z.ltb_spec (Z.of_nat n) (Z.of_nat len)); [|lia].
  now rewrite Nat2Z.id.
Qed.

Lemma py_index_ge len (n : nat) :
  len <= n -> py_index len (Z.of_nat n) = None.
Proof.
  intros H. unfold py_index.
  destruct (Z.leb_spec 0 (Z.of_nat n)); [|lia].
  destruct (Z.ltb_spec (Z.of_nat n) (Z.of_nat len)); [lia|reflexivity].
Qed.

Lemma py_index_lt len i n : py_index len i = Some n -> n < len.
Proof.
  unfold py_index.
  destruct (Z.leb_spec 0 i).
  - destruct (Z.ltb_spec i (Z.of_nat len)); intros E; inversion E; subst; lia.
  - destruct (Z.leb_spec 0 (i + Z.of_nat len)); intros E; inversion E; subst; lia.
Qed.

Lemma py_insert_pos_nonneg len (n : nat) :
  n <= len -> py_insert_pos len (Z.of_nat n) = n.
Proof.
  intros H. unfold py_insert_pos.
  destruct (Z.leb_spec 0 (Z.of_nat n)); [|lia]. rewrite Nat2Z.id. lia.
Qed.

Lemma py_insert_length i x (l : list A) : length (py_insert i x l) = S (length l).
Proof. apply insert_at_length. Qed.

Lemma py_get_some l i (x : A) :
  py_get l i = Some x -> exists n, py_index (length l) i = Some n /\ nth_error l n = Some x.
Proof.
  unfold py_get. destruct (py_index (length l) i) as [n|]; [|discriminate]. eauto.
Qed.

Lemma py_get_nat l (n : nat) : py_get l (Z.of_nat n) = nth_error l n.
Proof.
  unfold py_get. destruct (Nat.lt_ge_cases n (length l)) as [H|H].
  - now rewrite py_index_nonneg.
  - rewrite py_index_ge by lia. symmetry. now apply nth_error_None.
Qed.

Lemma py_set_length l i x (l' : list A) : py_set l i x = Some l' -> length l' = length l.
Proof.
  unfold py_set. destruct (py_index (length l) i); [|discriminate].
  intros E; inversion E; subst. apply set_nth_length.
Qed.

Lemma py_set_nat l (n : nat) (x : A) :
  n < length l -> py_set l (Z.of_nat n) x = Some (set_nth n x l).
Proof. intros H. unfold py_set. now rewrite py_index_nonneg. Qed.

Lemma py_pop_length l i x (l' : list A) :
  py_pop l i = Some (x, l') -> S (length l') = length l.
Proof.
  unfold py_pop. destruct (py_index (length l) i) as [n|] eqn:E; [|discriminate].
  destruct (nth_error l n) eqn:E2; [|discriminate].
  intros H; inversion H; subst. apply remove_at_length. eapply py_index_lt; eauto.
Qed.

Lemma py_pop_nat l (n : nat) (x : A) :
  nth_error l n = Some x -> py_pop l (Z.of_nat n) = Some (x, remove_at n l).
Proof.
  intros H. unfold py_pop. rewrite py_index_nonneg.
  - now rewrite H.
  - apply nth_error_Some. congruence.
Qed.

End Lists.
