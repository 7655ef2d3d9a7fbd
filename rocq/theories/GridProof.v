(** * GridProof: C135, grids *)
From Coq Require Import List Arith Bool Lia.
From Verif Require Import PyBase GridModel.
Import ListNotations.

Section Proofs.
Context {A : Type}.
Lemma prod_app a b : prod (a ++ b) = prod a * prod b. Proof. induction a; cbn; [lia|]. rewrite IHa. lia. Qed.
Lemma drop_at_app {B} (a b : list B) x : drop_at (List.length a) (a ++ x :: b) = a ++ b. Proof. induction a; cbn; [reflexivity|]. now rewrite IHa. Qed.
Lemma pos_lt s : forall idx p, pos s idx = Some p -> p < prod s.
Proof.
  induction s as [|n s IH]; intros [|k r] p H; cbn [pos prod] in *; try discriminate; [injection H as <-; lia|]. destruct (Nat.ltb_spec k n) as [L|L]; [|discriminate H]. destruct (pos s r) as [q|] eqn:E; [|discriminate H]. cbn in H. injection H as <-. specialize (IH r q E). nia.
Qed.
Lemma pos_some s idx : Forall2 lt idx s -> exists p, pos s idx = Some p.
Proof. induction 1 as [|k n r s L F (p & IH)]; cbn [pos]; [eauto|]. destruct (Nat.ltb_spec k n); [|lia]. rewrite IH. cbn. eauto. Qed.
Lemma repeat_length' (v : list A) m : List.length (np_repeat v m) = List.length v * m.
Proof. unfold np_repeat. induction v; cbn; [reflexivity|]. rewrite app_length, repeat_length, IHv. lia. Qed.
Lemma repeat_nth (v : list A) m j p : p < m -> nth_error (np_repeat v m) (j * m + p) = nth_error v j.
Proof.
  intros P. revert j. unfold np_repeat. induction v as [|a v IH]; intros j; cbn; [now destruct (j * m + p), j|]. destruct j as [|j]; cbn.
  - rewrite nth_error_app1 by (rewrite repeat_length; lia). rewrite (nth_error_nth' _ a) by (rewrite repeat_length; lia). f_equal. apply (repeat_spec m a). apply nth_In. rewrite repeat_length. lia.
  - rewrite nth_error_app2 by (rewrite repeat_length; lia). rewrite repeat_length. replace (m + j * m + p - m) with (j * m + p) by lia. apply IH.
Qed.
Lemma index_of_app a l r : ~ In a l -> index_of a (l ++ a :: r) = List.length l.
Proof. induction l as [|b l IH]; cbn; intros N; [now rewrite Nat.eqb_refl|]. destruct (Nat.eqb_spec b a); [tauto|]. f_equal. apply IH. tauto. Qed.
Lemma index_of_seq s m k l r : k < m -> ~ In (s + k) l -> index_of (s + k) (l ++ seq s m ++ r) = List.length l + k.
Proof.
  intros K N. replace m with (k + S (m - S k)) by lia. rewrite seq_app. cbn [seq]. rewrite <- app_assoc. cbn [app]. rewrite app_assoc. rewrite index_of_app; [now rewrite app_length, seq_length|]. intros I. apply in_app_iff in I. destruct I as [I|I]; [tauto|]. apply in_seq in I. lia.
Qed.
(** the index that the transposition of the code reads *)
Lemma order_eq i m : i <= m -> insert_at i 0 (tl (seq 0 (S m))) = seq 1 i ++ 0 :: seq (S i) (m - i).
Proof.
  intros L. cbn [seq tl]. unfold insert_at. replace m with (i + (m - i)) at 1 2 by lia. rewrite seq_app. rewrite firstn_app, skipn_app, seq_length, Nat.sub_diag. cbn [firstn skipn]. rewrite app_nil_r. rewrite (firstn_all2 (seq 1 i)) by (rewrite seq_length; lia). rewrite (skipn_all2 (seq 1 i)) by (rewrite seq_length; lia). reflexivity.
Qed.
Lemma map_nth_seq (f : nat -> nat) l s : (forall k, k < List.length l -> f (s + k) = nth k l 0) -> map f (seq s (List.length l)) = l.
Proof.
  revert s. induction l as [|a l IH]; intros s H; cbn; [reflexivity|]. f_equal; [specialize (H 0); rewrite Nat.add_0_r in H; apply H; cbn; lia|]. apply IH. intros k K. specialize (H (S k)). rewrite Nat.add_succ_r in H. apply H. cbn. lia.
Qed.
Lemma read_index a x b : let order := seq 1 (List.length a) ++ 0 :: seq (S (List.length a)) (List.length b) in
  map (fun ax => nth (index_of ax order) (a ++ x :: b) 0) (seq 0 (S (List.length a + List.length b))) = x :: a ++ b.
Proof.
  intros order. cbn [seq map]. f_equal.
  - unfold order. rewrite index_of_app by (rewrite in_seq; lia). rewrite seq_length. now rewrite app_nth2, Nat.sub_diag by lia.
  - rewrite seq_app, map_app. f_equal; apply map_nth_seq; intros k K.
    + unfold order. pose proof (index_of_seq 1 (List.length a) k [] (0 :: seq (S (List.length a)) (List.length b)) K (fun H => H)) as E. cbn [app List.length] in E. rewrite E. cbn. now rewrite app_nth1.
    + unfold order. pose proof (index_of_seq (S (List.length a)) (List.length b) k (seq 1 (List.length a) ++ [0]) [] K) as E. rewrite app_nil_r, <- app_assoc in E. cbn [app] in E. change (1 + List.length a + k) with (S (List.length a) + k). rewrite E; [|rewrite in_app_iff, in_seq; cbn; lia].
      rewrite app_length, seq_length. cbn [List.length]. rewrite app_nth2 by lia. replace (List.length a + 1 + k - List.length a) with (S k) by lia. reflexivity.
Qed.

(** the shape of the transposition *)
Lemma shape_back s1 n s2 : map (fun ax => nth ax (n :: s1 ++ s2) 0) (seq 1 (List.length s1) ++ 0 :: seq (S (List.length s1)) (List.length s2)) = s1 ++ n :: s2.
Proof.
  rewrite map_app. cbn [map]. f_equal; [apply map_nth_seq; intros k K; cbn; now rewrite app_nth1|]. cbn [nth]. f_equal. apply map_nth_seq. intros k K. cbn. rewrite app_nth2 by lia. f_equal. lia.
Qed.
Lemma F2_length {X Y} (P : X -> Y -> Prop) l m : Forall2 P l m -> List.length l = List.length m.
Proof. induction 1; cbn; lia. Qed.
Lemma one_spec s1 (v : list A) s2 : exists g, gridOne (s1 ++ List.length v :: s2) (List.length s1) v = Ok g /\ v_shape g = s1 ++ List.length v :: s2 /\
  forall a x b, Forall2 lt a s1 -> Forall2 lt b s2 -> x < List.length v -> v_get g (a ++ x :: b) = nth_error v x.
Proof.
  unfold gridOne. rewrite app_nth2, Nat.sub_diag by lia. cbn [nth]. rewrite drop_at_app. set (n := List.length v). set (m := prod (s1 ++ n :: s2) / n).
  assert (Hm : n * m = n * prod (s1 ++ s2)).
  { unfold m. rewrite !prod_app. cbn [prod]. destruct (Nat.eq_dec n 0) as [->|N]; [reflexivity|]. f_equal. replace (prod s1 * (n * prod s2)) with (prod s1 * prod s2 * n) by lia. now rewrite Nat.div_mul. }
  unfold reshape. rewrite repeat_length'. cbn [prod]. fold n. rewrite Hm, Nat.eqb_refl. cbn [List.length]. rewrite app_length. rewrite order_eq by lia. replace (List.length s1 + List.length s2 - List.length s1) with (List.length s2) by lia.
  eexists. split; [reflexivity|]. split; [apply shape_back|]. intros a x b Fa Fb Hx. unfold transpose. cbn [v_get]. pose proof (F2_length _ _ _ Fa) as La. pose proof (F2_length _ _ _ Fb) as Lb.
  rewrite !app_length. cbn [List.length]. rewrite !seq_length, La, Lb, Nat.eqb_refl. replace (List.length s1 + S (List.length s2)) with (S (List.length s1 + List.length s2)) by lia. rewrite <- La, <- Lb. rewrite read_index. unfold get. cbn [a_shape a_data pos]. destruct (Nat.ltb_spec x n) as [_|]; [|lia].
  destruct (pos_some (s1 ++ s2) (a ++ b)) as (p & P); [now apply Forall2_app|]. rewrite P. cbn [option_map]. pose proof (pos_lt _ _ _ P) as Lp. assert (Em : m = prod (s1 ++ s2)) by nia. rewrite <- Em. apply repeat_nth. lia.
Qed.

(** ** Theorems *)
(** C135: nd_grid gives one array for each vector, of the shape of all their lengths, whose element at an index is the element of its vector at its own coordinate *)
Theorem C135_nd_grid : forall vecs : list (list A), exists gs, nd_grid vecs = Ok gs /\ List.length gs = List.length vecs /\
  forall i v g, nth_error vecs i = Some v -> nth_error gs i = Some g -> v_shape g = map (@List.length A) vecs /\
    forall idx, Forall2 lt idx (map (@List.length A) vecs) -> v_get g idx = nth_error v (nth i idx 0) /\ exists x, v_get g idx = Some x.
Proof.
  intros vecs. unfold nd_grid.
  assert (X : forall l1 l2 : list (list A), exists gs, gridAll (map (@List.length A) (l1 ++ l2)) (List.length l1) l2 = Ok gs /\ List.length gs = List.length l2 /\
    forall i v g, nth_error l2 i = Some v -> nth_error gs i = Some g -> v_shape g = map (@List.length A) (l1 ++ l2) /\ forall idx, Forall2 lt idx (map (@List.length A) (l1 ++ l2)) -> v_get g idx = nth_error v (nth (List.length l1 + i) idx 0) /\ exists x, v_get g idx = Some x).
  { intros l1 l2. revert l1. induction l2 as [|v l2 IH]; intros l1; cbn [gridAll]; [exists []; split; [reflexivity|]; split; [reflexivity|]; intros [|i]; discriminate|].
    destruct (IH (l1 ++ [v])) as (gs & E & L & H). rewrite <- app_assoc in E, H. cbn [app] in E, H. rewrite app_length in E, H. cbn [List.length] in E, H. rewrite Nat.add_1_r in E, H. rewrite E.
    destruct (one_spec (map (@List.length A) l1) v (map (@List.length A) l2)) as (g & Eg & Sg & Hg). rewrite map_length in Eg. rewrite map_app. cbn [map]. rewrite Eg. exists (g :: gs). split; [reflexivity|]. split; [cbn; lia|].
    intros [|i] v' g' Ev Eg'; cbn in Ev, Eg'.
    - injection Ev as <-. injection Eg' as <-. split; [exact Sg|]. intros idx F. apply Forall2_app_inv_r in F. destruct F as (a & r & Fa & Fr & ->). inversion Fr as [|x ? b ? Hx Fb]; subst. pose proof (F2_length _ _ _ Fa) as La. rewrite map_length in La. rewrite Hg by trivial. rewrite Nat.add_0_r, <- La, app_nth2, Nat.sub_diag by lia. cbn [nth]. split; [reflexivity|].
      destruct (nth_error v x) eqn:N; [eauto|]. apply nth_error_None in N. lia.
    - rewrite map_app in H. cbn [map] in H. destruct (H i v' g' Ev Eg') as (S1 & S2). split; [exact S1|]. intros idx F. replace (List.length l1 + S i) with (S (List.length l1) + i) by lia. now apply S2. }
  exact (X [] vecs).
Qed.
Example ex_grid : exists g h, nd_grid [[1; 2]; [10; 20; 30]] = Ok [g; h] /\ v_shape g = [2; 3] /\ v_get g [1; 2] = Some 2 /\ v_get h [1; 2] = Some 30 /\ v_get h [1; 3] = None.
Proof. do 2 eexists. split; [vm_compute; reflexivity|]. vm_compute. repeat split. Qed.
End Proofs.
